(** Proofs about flat_map and flat_set over small_vector. *)
From Coq Require Import List Arith NArith ZArith Bool Lia.
From Verif Require Import Base SeqSpec VecCommon SmallVectorModel SmallVectorSpec SmallVectorProofs
  FlatModel FlatSpec FlatProofs FlatExnModel FlatExnSpec FlatExnProofs SmallFlatModel SmallFlatSpec.
Import ListNotations.
Local Notation vholds := SmallVectorSpec.holds.

(** * Histories whose bound on the contents rises from call to call *)
Section Rising.
Context {E K C CT T O : Type}.
Variable key : E -> K.
Variable lt : C -> K -> K -> bool.
Variable cont : container E CT.
Variable rep : nat -> CT -> list E -> Prop.
Variable means : C -> list E -> list E -> (K -> option E) -> O -> (K -> option E) -> fret T -> Prop.
Variable allowed : C -> (K -> option E) -> O -> Prop.
Variable call : O -> M (flat C CT) (fret T).
Variable top : nat.
Hypothesis rises : forall n t l, rep n t l -> rep (S n) t l.
Hypothesis call_ok : forall n c t l m o, n < top -> rep n t l -> enumerates key lt c l m -> allowed c m o ->
  exists t' l' m' a,
    fobserve (call o (mkFlat c t)) = Some (mkFlat c t', a) /\
    means c l l' m o m' a /\ rep (S n) t' l' /\ enumerates key lt c l' m'.
Hypothesis copy_ok : forall n t u l k, n < top -> rep n t l -> rep n u k ->
  exists t' u', c_copy_assign cont (t, u) = Ok tt (t', u') /\ rep n t' k /\ rep n u' k.
Hypothesis move_ok : forall n t u l k, n < top -> rep n t l -> rep n u k ->
  exists t' u', c_move_assign cont (t, u) = Ok tt (t', u') /\ rep n t' k /\ rep n u' [].

Lemma rising_step n st cs o : n < top -> Forall2 (FlatSpec.holds key lt (rep n)) st cs ->
  allowedn allowed cs o -> (forall i j, o <> FSwap i j) ->
  exists st' cs' a,
    fobserve (fsys cont call o st) = Some (st', a) /\
    stepn key lt means cs o cs' a /\ Forall2 (FlatSpec.holds key lt (rep (S n))) st' cs'.
Proof.
  intros Hn HF0 Hok Hsw.
  assert (HF : Forall2 (FlatSpec.holds key lt (rep (S n))) st cs).
  { clear - HF0 rises. induction HF0 as [|a x st cs (Hc & l & Hr & HE) HF IH]; constructor; auto.
    split; [exact Hc|]. exists l. auto. }
  destruct o as [i op|i j|i j|i j]; cbn [fsys stepn allowedn] in *.
  - destruct Hok as ((c & m) & Hx & Ho). cbn [fst snd] in Ho.
    destruct (Forall2_nth _ _ _ _ _ HF0 Hx) as ([c0 t] & Hs & Hc & l & Hr & HE).
    cbn [fcmp fcont fst snd] in *. subst c0.
    destruct (call_ok n c t l m op Hn Hr HE Ho) as (t' & l' & m' & a & Ha & Hm & Hr' & HE').
    exists (upd st i (mkFlat c t')), (upd cs i (c, m')), a. split; [|split].
    + unfold on_one. rewrite Hs. revert Ha. unfold fobserve.
      destruct (call op (mkFlat c t)); intros [= <- <-]; reflexivity.
    + exists (c, m), (c, m'). split; [exact Hx|]. split; [|reflexivity].
      split; [reflexivity|]. exists l, l'. split; [exact HE|]. split; [exact HE'|exact Hm].
    + apply Forall2_upd; [exact HF|]. split; [reflexivity|]. exists l'. now split.
  - destruct Hok as (Hi & Hj & Hne).
    destruct (nth_get cs i Hi) as [x Hx], (nth_get cs j Hj) as [y Hy].
    destruct (Forall2_nth _ _ _ _ _ HF0 Hx) as (a & Ha & Hac & la & Hla & HEa).
    destruct (Forall2_nth _ _ _ _ _ HF0 Hy) as (b & Hb & Hbc & lb & Hlb & HEb).
    destruct (copy_ok _ _ _ _ _ Hn Hla Hlb) as (t' & u' & Ht & H1 & H2).
    exists (upd (upd st i (mkFlat (fcmp b) t')) j (mkFlat (fcmp b) u')), (upd cs i y), ANone.
    split; [|split].
    + unfold no_fret, on_two, copy_assign, bind. cbn [fst snd]. rewrite Ha, Hb.
      unfold FlatModel.copy_assign. cbn [fst snd]. rewrite Ht. reflexivity.
    + eauto.
    + assert (HU : upd cs i y = upd (upd cs i y) j y).
      { symmetry. apply upd_nth_id. now rewrite nth_error_upd_neq. }
      rewrite HU. apply Forall2_upd; [apply Forall2_upd; [exact HF|]|];
        (split; [exact Hbc|]; exists lb; split; auto).
  - destruct Hok as (Hi & Hj & Hne).
    destruct (nth_get cs i Hi) as [x Hx], (nth_get cs j Hj) as [y Hy].
    destruct (Forall2_nth _ _ _ _ _ HF0 Hx) as (a & Ha & Hac & la & Hla & HEa).
    destruct (Forall2_nth _ _ _ _ _ HF0 Hy) as (b & Hb & Hbc & lb & Hlb & HEb).
    destruct (move_ok _ _ _ _ _ Hn Hla Hlb) as (t' & u' & Ht & H1 & H2).
    exists (upd (upd st i (mkFlat (fcmp b) t')) j (mkFlat (fcmp b) u')),
      (upd (upd cs i y) j (fst y, fempty)), ANone.
    split; [|split].
    + unfold no_fret, on_two, bind. rewrite Ha, Hb.
      unfold FlatModel.move_assign. cbn [fst snd]. rewrite Ht. reflexivity.
    + eauto.
    + apply Forall2_upd; [apply Forall2_upd; [exact HF|]|].
      * split; [exact Hbc|]. exists lb. split; auto.
      * split; [exact Hbc|]. exists []. split; [auto|]. apply enum_empty.
  - now destruct (Hsw i j).
Qed.

Lemma rising_run os : forall n st cs, n + length os <= top ->
  Forall2 (FlatSpec.holds key lt (rep n)) st cs ->
  legal key lt means allowed cs os -> no_swap os ->
  exists st' rs cs',
    frun (fsys cont call) st os = Some (st', rs) /\
    follows key lt means cs os rs cs' /\
    Forall2 (FlatSpec.holds key lt (rep (n + length os))) st' cs'.
Proof.
  induction os as [|o os IH]; intros n st cs Hn HF HL HS; cbn [length] in *.
  - exists st, [], cs. split; [reflexivity|]. split; [constructor|]. now rewrite Nat.add_0_r.
  - inversion HL as [|? ? ? Hok Hnext]; subst. inversion HS as [|? ? Hso HSo]; subst.
    destruct (rising_step n st cs o) as (st1 & cs1 & a & H1 & H2 & H3); auto; [lia|].
    destruct (IH (S n) st1 cs1) as (st' & rs & cs' & H4 & H5 & H6); eauto; [lia|].
    exists st', (a :: rs), cs'. split; [|split].
    + cbn [frun]. now rewrite H1, H4.
    + econstructor; eauto.
    + now replace (n + S (length os)) with (S n + length os) by lia.
Qed.
End Rising.

(** * small_vector *)
Section Container.
Context {V : Type}.
Variable moved : V -> V.
Variable dflt : V.
Variable SC RB : nat.
Variable maxn : N.
Hypothesis HSC : 0 < SC.
Hypothesis HRB : RB <= SC + 1.
Hypothesis Hmax : (maxn < two63)%N.
Notation cont := (small_cont V moved dflt SC RB maxn).

Lemma room_le n m : room maxn m -> n <= m -> room maxn n.
Proof.
  clear HSC HRB Hmax. unfold room. intros H Hle. pose proof (Nat.div_le_mono n m 2). lia.
Qed.

(** The same container, but it refuses to hold more than [n] elements. *)
Definition limited (n : nat) : container V (@vec V) := {|
  c_size := c_size cont;
  c_get := c_get cont;
  c_put := c_put cont;
  c_call o := match o with
              | Insert _ _ => fun s => if n <=? snd (ve s) then Throw OutOfRange s else c_call cont o s
              | _ => c_call cont o
              end;
  c_copy_assign := c_copy_assign cont;
  c_move_assign := c_move_assign cont;
  c_swap := fun st => Ok tt (snd st, fst st);
  c_equal := c_equal cont
|}.

Local Notation within := (small_rep SC).

Lemma small_call t l o : vholds SC t l -> vfuse t = None -> small_ok maxn l (Seq o) ->
  exists t', observe (c_call cont o t) = Some (t', snd (small_step dflt l (Seq o))) /\
    vholds SC t' (fst (small_step dflt l (Seq o))) /\ vfuse t' = None.
Proof. intros H1 H2 H3. exact (call_spec moved dflt SC RB maxn HSC HRB Hmax t l (Seq o) H1 H2 H3). Qed.

Lemma put_ok t l i v : vholds SC t l -> i < length l ->
  exists t', small_put V i v t = Ok tt t' /\ vholds SC t' (upd l i v) /\ vfuse t' = vfuse t.
Proof.
  intros H Hi. destruct (nth_get l i Hi) as [x Hx]. unfold small_put.
  rewrite (holds_slot SC t l i x H Hx). eexists. split; [reflexivity|]. split; [|reflexivity].
  destruct H as (He & Hc & Hb & Hs & Hd & Ho). unfold SmallVectorSpec.holds, with_blocks, put_slot.
  cbn [blocks vb ve vcap fst snd]. rewrite upd_length. rewrite Hb.
  pose proof (nth_lt _ _ _ Hb) as L.
  assert (EU : upd (map Live l ++ repeat Raw (vcap t - length l)) i (Live v) =
               map Live (upd l i v) ++ repeat Raw (vcap t - length l)).
  { clear - Hi. generalize (vcap t - length l) as r. revert i Hi. induction l as [|y l IH]; intros [|i] Hi r; cbn in *; try lia; [reflexivity|].
    f_equal. rewrite IH by lia. reflexivity. }
  split; [exact He|]. split; [exact Hc|]. split; [|split; [exact Hs|split]].
  - rewrite nth_error_upd_eq by exact L. now rewrite EU.
  - intros Hv. destruct (Hd Hv) as (H1 & H2). split; [exact H1|]. now rewrite nth_error_upd_neq by auto.
  - intros j Hj Hjv Hl. rewrite upd_length in Hl. rewrite nth_error_upd_neq by auto. auto.
Qed.

Lemma limited_conforms n : room maxn n -> conforms (limited n) (Some n) (within n).
Proof.
  intros Hr. constructor; cbn [c_size c_get c_put c_call c_copy_assign c_move_assign c_swap c_equal limited small_cont].
  - intros t l (_ & _ & H). cbn. now apply Nat.leb_le.
  - intros t l ((H & _) & _). rewrite H. reflexivity.
  - intros t l i e (H & _) He. unfold SmallVectorModel.at_. rewrite bind_get. unfold read.
    now rewrite (holds_slot SC t l i e H He).
  - intros t l i e (H & F & L) Hi. destruct (put_ok t l i e H Hi) as (t' & E1 & H' & F').
    exists t'. split; [exact E1|]. split; [exact H'|]. rewrite upd_length, F'. auto.
  - intros t l p e (H & F & L) Hp Hf. cbn [fits] in Hf. apply Nat.leb_le in Hf.
    pose proof H as (He & _). rewrite He. cbn [snd].
    rewrite (proj2 (Nat.leb_gt _ _)) by lia.
    destruct (small_call t l (Insert p e) H F) as (t' & E1 & H' & F').
    { cbn. eapply room_le; [exact Hr|]. lia. }
    cbn [small_step valid_pos spec_step fits fst snd] in *. rewrite (proj2 (Nat.leb_le _ _) Hp) in *.
    cbn [fst snd] in *.
    exists t'. split; [now apply observe_pos|]. split; [exact H'|]. split; [exact F'|].
    unfold insert_at. rewrite !app_length, firstn_length, skipn_length. cbn [length]. lia.
  - intros t l p e (H & F & L) Hp Hf. cbn [fits] in Hf. apply Nat.leb_gt in Hf.
    pose proof H as (He & _). rewrite He. cbn [snd].
    rewrite (proj2 (Nat.leb_le _ _)) by lia. exists t. split; [reflexivity|]. split; auto.
  - intros t l p (H & F & L) Hp.
    destruct (small_call t l (Erase p) H F Logic.I) as (t' & E1 & H' & F').
    cbn [small_step valid_pos spec_step fst snd] in *. rewrite (proj2 (Nat.ltb_lt _ _) Hp) in *. cbn [fst snd] in *.
    exists t'. split; [now apply observe_pos|]. split; [exact H'|]. split; [exact F'|].
    unfold erase_at. rewrite app_length, firstn_length, skipn_length. lia.
  - intros t l p (H & F & L) Hp.
    destruct (small_call t l (EraseRange p (length l)) H F) as (t' & E1 & H' & F'); [cbn; lia|].
    cbn [small_step valid_pos spec_step fst snd] in *.
    rewrite (proj2 (Nat.ltb_ge _ _) Hp), Nat.leb_refl in *. cbn [orb fst snd] in *.
    exists t'. split; [now apply observe_pos|].
    unfold erase_at in H'. rewrite skipn_all, app_nil_r in H'. split; [exact H'|]. split; [exact F'|].
    rewrite firstn_length. lia.
  - intros t l (H & F & L). destruct (small_call t l Clear H F Logic.I) as (t' & E1 & H' & F').
    exists t'. split; [now apply observe_none|]. split; [exact H'|]. split; [exact F'|]. cbn. lia.
  - intros t u l k (H & F & L) (H2 & F2 & L2).
    destruct (copy_assign_spec SC RB maxn HSC HRB Hmax t u l k H F H2) as (t' & E1 & H' & F').
    { eapply room_le; eauto. }
    exists t', u. split; [exact E1|]. split; split; auto.
  - intros t u l k (H & F & L) (H2 & F2 & L2).
    destruct (move_assign_spec moved SC RB maxn HSC HRB Hmax t u l k H H2) as (t' & u' & E1 & H' & H2' & F' & F2').
    exists t', u'. split; [exact E1|]. split; (split; [assumption|split; [congruence|auto with arith]]).
  - intros t u l k H H2. exists u, t. auto.
  - intros eqb t u l k (H & F & L) (H2 & F2 & L2) Heq.
    exact (equal_spec SC RB maxn HSC HRB Hmax eqb t u l k H H2 Heq).
Qed.

(** * Exceptions *)

(** Nothing throws as long as no construction is about to. *)
Definition quiet {A} (m : M (@vec V) A) : Prop := forall s, vfuse s = None ->
  match m s with
  | Ok _ s' => vfuse s' = None
  | Throw _ _ => False
  | _ => True
  end.
Lemma quiet_bind {A B} (m : M (@vec V) A) (k : A -> M (@vec V) B) :
  quiet m -> (forall a, quiet (k a)) -> quiet (bind m k).
Proof.
  intros H1 H2 s F. unfold bind. specialize (H1 s F). destruct (m s) as [a s'| | |]; auto. now apply H2.
Qed.
Lemma quiet_ret {A} (a : A) : quiet (ret a). Proof. intros s F. exact F. Qed.
Lemma quiet_if {A} (b : bool) (m m' : M (@vec V) A) : quiet m -> quiet m' -> quiet (if b then m else m').
Proof. now destruct b. Qed.
Lemma quiet_get : quiet get. Proof. intros s F. exact F. Qed.
Lemma quiet_ub {A} : quiet (@ub _ A). Proof. intros s F. exact Logic.I. Qed.
Lemma quiet_destroy p : quiet (destroy p).
Proof. intros s F. unfold destroy. destruct (slot_at p (blocks s)) as [[|]|]; auto. Qed.
Lemma quiet_construct p x : quiet (SmallVectorModel.construct p x).
Proof.
  assert (HB : forall v, quiet (begin_life p v)).
  { intros v s F. unfold begin_life. destruct (slot_at p (blocks s)) as [[|]|]; auto. }
  assert (HT : quiet (@tick V)). { intros s F. unfold tick. now rewrite F. }
  destruct x as [v|v|q]; cbn [SmallVectorModel.construct]; [|apply HB|].
  - apply quiet_bind; auto.
  - apply quiet_bind; [|intros; apply quiet_bind; auto].
    intros s F. unfold read. destruct (slot_at q (blocks s)) as [[|]|]; auto.
Qed.
Lemma quiet_move_to p q : quiet (move_to moved p q).
Proof.
  unfold move_to. apply quiet_bind; [|intros; apply quiet_construct].
  intros s F. unfold move_from. destruct (slot_at q (blocks s)) as [[|]|]; auto.
Qed.
Lemma quiet_set_end p : quiet (set_end p). Proof. intros s F. exact F. Qed.
Lemma quiet_set_buf b p c : quiet (set_buf b p c). Proof. intros s F. exact F. Qed.
Lemma quiet_dealloc b n : quiet (deallocate b n).
Proof.
  intros s F. unfold deallocate. destruct b as [|b]; [exact Logic.I|].
  destruct (nth_error (blocks s) (S b)) as [[l|]|]; try exact Logic.I.
  now destruct ((length l =? n) && forallb is_raw l).
Qed.
Lemma quiet_destroy_from b k : forall i, quiet (destroy_from b i k).
Proof.
  induction k as [|k IH]; intros i; cbn [destroy_from]; [apply quiet_ret|].
  apply quiet_bind; [apply quiet_destroy|auto].
Qed.
Lemma quiet_move_range db sb k : forall di si, quiet (move_range moved db di sb si k).
Proof.
  induction k as [|k IH]; intros di si; cbn [move_range]; [apply quiet_ret|].
  apply quiet_bind; [apply quiet_move_to|auto].
Qed.
Lemma quiet_relocate_range db sb k : forall di si, quiet (relocate_range moved db di sb si k).
Proof.
  induction k as [|k IH]; intros di si; cbn [relocate_range]; [apply quiet_ret|].
  apply quiet_bind; [apply quiet_move_to|intros _]. apply quiet_bind; [apply quiet_destroy|auto].
Qed.
Lemma quiet_grow_loop b pos num k : quiet (grow_loop moved b pos num k).
Proof.
  induction k as [|k IH]; cbn [grow_loop]; [apply quiet_ret|].
  apply quiet_bind; [apply quiet_move_to|intros _]. apply quiet_bind; [apply quiet_destroy|auto].
Qed.
Lemma quiet_shrink_loop b k : forall pos np, quiet (shrink_loop moved b pos np k).
Proof.
  induction k as [|k IH]; intros pos np; cbn [shrink_loop]; [apply quiet_ret|].
  apply quiet_bind; [apply quiet_destroy|intros _]. apply quiet_bind; [apply quiet_move_to|auto].
Qed.
Lemma quiet_clear : quiet (SmallVectorModel.clear SC RB).
Proof.
  unfold SmallVectorModel.clear, destroy_all.
  apply quiet_bind; [apply quiet_bind; [apply quiet_get|intros s]|].
  - apply quiet_if; [apply quiet_destroy_from|apply quiet_ub].
  - intros _. apply quiet_bind; [apply quiet_get|intros s]. apply quiet_if; [|apply quiet_set_end].
    apply quiet_bind; [apply quiet_dealloc|intros _; apply quiet_set_buf].
Qed.

Lemma choose_data_fuse d s r s' : choose_data SC RB maxn d s = Ok r s' -> vfuse s' = @vfuse V s.
Proof.
  clear HSC HRB Hmax. unfold choose_data. rewrite bind_get.
  assert (Ha : forall n c, (let* b := allocate maxn n in ret (b, c)) s = Ok r s' -> vfuse s' = vfuse s).
  { intros n c. unfold bind, allocate. destruct (maxn <? n)%N; [discriminate|].
    intros H. injection H as <- <-. reflexivity. }
  destruct (negb (is_static s)).
  - destruct (N.of_nat (vcap s) <? d)%N; [|destruct (d <? N.of_nat RB)%N; intros H; injection H as <- <-; reflexivity].
    destruct (grow_cap _ _ _); [apply Ha|discriminate].
  - destruct (N.of_nat SC <? d)%N; [apply Ha|intros H; injection H as <- <-; reflexivity].
Qed.

Lemma quiet_throw {A} (m : M (@vec V) A) s x s' : quiet m -> vfuse s = None -> m s = Throw x s' -> False.
Proof. intros H F E. specialize (H s F). now rewrite E in H. Qed.

Lemma small_insert_strong p e s x s' : vfuse s = None ->
  insert1 moved SC RB maxn p (CopyOf e) s = Throw x s' -> s' = s.
Proof.
  intros F H. unfold insert1, grow_at in H. unfold msize in H. revert H. unfold bind at 1. unfold bind at 1.
  destruct (fst (ve s) =? vb s); [|discriminate].
  unfold bind at 1, throw_if at 1.
  destruct ((p <? 0) || (Z.of_nat (snd (ve s)) <? p))%Z; [now intros [= _ <-]|].
  rewrite bind_get. cbv beta. unfold bind at 1.
  destruct (choose_data SC RB maxn _ s) as [cdr s1|y s1| |] eqn:E1; try discriminate.
  2:{ intros [= _ <-]. now apply choose_data_throw in E1. }
  apply choose_data_fuse in E1. rewrite F in E1.
  set (m := (if fst cdr =? vb s then _ else _) : M vec nat).
  assert (Q : quiet m).
  { unfold m. apply quiet_if.
    - apply quiet_bind; [apply quiet_set_end|intros _].
      apply quiet_bind; [apply quiet_grow_loop|intros _; apply quiet_ret].
    - apply quiet_bind; [apply quiet_move_range|intros _].
      apply quiet_bind; [apply quiet_move_range|intros _].
      apply quiet_bind; [apply quiet_destroy_from|intros _].
      apply quiet_bind; [apply quiet_if; [apply quiet_ret|apply quiet_dealloc]|intros _].
      apply quiet_bind; [apply quiet_set_buf|intros _; apply quiet_ret]. }
  clearbody m. intros H. exfalso. specialize (Q s1 E1). destruct (m s1) as [a s2| | |]; try easy.
  revert H. apply (quiet_throw (let* s := get in SmallVectorModel.construct (vb s, a) (CopyOf e) ;;; ret a) s2); [|exact Q].
  apply quiet_bind; [apply quiet_get|intros ?].
  apply quiet_bind; [apply quiet_construct|intros _; apply quiet_ret].
Qed.

Lemma small_erase_strong p s x s' : vfuse s = None ->
  SmallVectorModel.erase moved SC RB maxn p s = Throw x s' -> s' = s.
Proof.
  intros F. unfold SmallVectorModel.erase, shrink_at. unfold msize, bind at 1.
  destruct (fst (ve s) =? vb s); [|discriminate].
  unfold bind at 1, throw_if at 1.
  destruct ((p <? 0) || (Z.of_nat (snd (ve s)) <? p) || (Z.of_nat (snd (ve s)) <? p + Z.of_N 1))%Z;
    [now intros [= _ <-]|].
  rewrite bind_get. cbv beta zeta. destruct (snd (ve s) - N.to_nat 1 =? 0).
  - intros H. exfalso. revert H. apply quiet_throw; [|exact F].
    apply quiet_bind; [apply quiet_clear|intros _; apply quiet_ret].
  - unfold bind at 1.
    destruct (choose_data SC RB maxn _ s) as [cdr s1|y s1| |] eqn:E1; try discriminate.
    2:{ intros [= _ <-]. now apply choose_data_throw in E1. }
    apply choose_data_fuse in E1. rewrite F in E1.
    intros H. exfalso. revert H. apply quiet_throw; [|exact E1]. apply quiet_if.
    + apply quiet_bind; [apply quiet_shrink_loop|intros _].
      apply quiet_bind; [apply quiet_destroy_from|intros _].
      apply quiet_bind; [apply quiet_set_end|intros _; apply quiet_ret].
    + apply quiet_bind; [apply quiet_relocate_range|intros _].
      apply quiet_bind; [apply quiet_destroy_from|intros _].
      apply quiet_bind; [apply quiet_relocate_range|intros _].
      apply quiet_bind; [apply quiet_dealloc|intros _].
      apply quiet_bind; [apply quiet_set_buf|intros _; apply quiet_ret].
Qed.

Lemma small_strong : strong_container cont (fun t => vfuse t = None).
Proof.
  clear HSC HRB Hmax. constructor.
  - intros i t. cbn [c_get small_cont]. unfold SmallVectorModel.at_. rewrite bind_get. unfold read.
    now destruct (slot_at (vb t, i) (blocks t)) as [[|]|].
  - intros i e t x t'. cbn [c_put small_cont]. unfold small_put.
    destruct (slot_at (vb t, i) (blocks t)) as [[|]|]; discriminate.
  - intros o t x t' U F. destruct o; try contradiction; cbn [c_call small_cont SmallVectorModel.call].
    + unfold position_answer, bind at 1.
      destruct (insert1 moved SC RB maxn _ _ t) as [|y s| |] eqn:E1; try discriminate.
      intros [= _ <-]. now apply small_insert_strong in E1.
    + unfold position_answer, bind at 1.
      destruct (SmallVectorModel.erase moved SC RB maxn _ t) as [|y s| |] eqn:E1; try discriminate.
      intros [= _ <-]. now apply small_erase_strong in E1.
    + unfold no_answer, bind at 1. intros H. exfalso. revert H. pose proof (quiet_clear t F) as Q.
      destruct (SmallVectorModel.clear SC RB t); [discriminate|contradiction|discriminate|discriminate].
Qed.
End Container.

(** * Maps and sets *)
Section Calls.
Context {E K Q C : Type}.
Variable key : E -> K.
Variable lt : C -> K -> K -> bool.
Variable kq : C -> K -> Q -> bool.
Variable qk : C -> Q -> K -> bool.
Variable conv : Q -> K.
Hypothesis W : forall c, strict_weak_order (lt c).
Hypothesis Hkq : forall c k q, kq c k q = lt c k (conv q).
Hypothesis Hqk : forall c k q, qk c q k = lt c (conv q) k.
Variable moved : E -> E.
Variable dflt : E.
Variable SC RB : nat.
Variable maxn : N.
Hypothesis HSC : 0 < SC.
Hypothesis HRB : RB <= SC + 1.
Hypothesis Hmax : (maxn < two63)%N.
Notation cont := (small_cont E moved dflt SC RB maxn).
Notation lim := (limited moved dflt SC RB maxn).

Lemma emplace_same n i e c t : snd (ve t) < n ->
  emplace_at (lim n) i e (mkFlat c t) = emplace_at (C := C) cont i e (mkFlat c t).
Proof.
  clear HSC HRB Hmax. intros H. unfold emplace_at, onc, bind. cbn [fcont fcmp c_call limited].
  now rewrite (proj2 (Nat.leb_gt _ _) H).
Qed.

Lemma lookup_small n c t l m q : room maxn n -> small_rep SC n t l -> enumerates key lt c l m ->
  exists p b, lower_bound key kq cont q (mkFlat c t) = Ok p (mkFlat c t) /\
    present_at key qk cont q p (mkFlat c t) = Ok b (mkFlat c t).
Proof.
  intros Hr R EN.
  destruct (lookup_fact key lt kq qk (lim n) (Some n) (small_rep SC n)
    (limited_conforms moved dflt SC RB maxn HSC HRB Hmax n Hr) conv c (W c)
    (Hkq c) (Hqk c) t l m R EN q) as (p & H1 & _ & _ & H2).
  exists p. destruct (m (conv q)) as [e|].
  - exists true. split; [exact H1|apply H2].
  - exists false. split; [exact H1|exact H2].
Qed.

Lemma insert_same n c t l m q e : room maxn (S n) -> small_rep SC n t l -> enumerates key lt c l m ->
  insert key kq qk cont q e (mkFlat c t) = insert key kq qk (lim (S n)) q e (mkFlat c t).
Proof.
  intros Hr R EN. pose proof R as ((He & _) & _ & L).
  destruct (lookup_small n c t l m q) as (p & b & H1 & H2); auto.
  { eapply room_le; [exact Hr|lia]. }
  unfold insert. erewrite bind_ok by exact H1. erewrite bind_ok by exact H2.
  erewrite (bind_ok (lower_bound key kq (lim (S n)) q)) by exact H1.
  erewrite (bind_ok (present_at key qk (lim (S n)) q p)) by exact H2.
  destruct b; [reflexivity|]. unfold bind at 1. unfold bind at 1.
  rewrite emplace_same; [reflexivity|]. rewrite He. cbn. lia.
Qed.

Lemma fcall_same_small {T} asq n c t l m o : room maxn (S n) -> small_rep SC n t l ->
  enumerates key lt c l m ->
  fcall (T := T) key kq qk cont asq o (mkFlat c t) = fcall key kq qk (lim (S n)) asq o (mkFlat c t).
Proof.
  intros Hr R EN. destruct o; try reflexivity; cbn [fcall]; unfold bind at 1;
    (erewrite insert_same by eauto); reflexivity.
Qed.

Lemma fmeans_cap {T} n c l l' m o m' (a : fret T) : length l <= n ->
  fmeans key lt conv (Some (S n)) c l l' m o m' a -> fmeans key lt conv None c l l' m o m' a.
Proof.
  clear W Hkq Hqk HSC HRB Hmax. intros L. assert (F : fits (Some (S n)) (length l + 1) = true) by (cbn [fits]; apply Nat.leb_le; lia).
  destruct o; cbn [fmeans]; unfold inserted; rewrite ?F; auto.
Qed.
End Calls.

Section Map.
Context {K T Q C : Type}.
Variable lt : C -> K -> K -> bool.
Variable kq : C -> K -> Q -> bool.
Variable qk : C -> Q -> K -> bool.
Variable conv : Q -> K.
Variable asq : K -> Q.
Variable val0 : T.
Hypothesis W : forall c, strict_weak_order (lt c).
Hypothesis Hkq : forall c k q, kq c k q = lt c k (conv q).
Hypothesis Hqk : forall c k q, qk c q k = lt c (conv q) k.
Hypothesis Hasq : forall k, conv (asq k) = k.
Variable moved : K * T -> K * T.
Variable dflt : K * T.
Variable SC RB : nat.
Variable maxn : N.
Hypothesis HSC : 0 < SC.
Hypothesis HRB : RB <= SC + 1.
Hypothesis Hmax : (maxn < two63)%N.
Notation cont := (small_cont (K * T) moved dflt SC RB maxn).
Notation lim := (limited moved dflt SC RB maxn).

Lemma index_same n c t l m q : room maxn (S n) -> small_rep SC n t l -> enumerates fst lt c l m ->
  index kq qk cont conv val0 q (mkFlat c t) = index kq qk (lim (S n)) conv val0 q (mkFlat c t).
Proof.
  intros Hr R EN. pose proof R as ((He & _) & _ & L).
  destruct (lookup_small fst lt kq qk conv W Hkq Hqk moved dflt SC RB maxn HSC HRB Hmax n c t l m q)
    as (p & b & H1 & H2); auto.
  { eapply room_le; [exact Hr|lia]. }
  unfold index. erewrite bind_ok by exact H1. erewrite bind_ok by exact H2.
  erewrite (bind_ok (lower_bound fst kq (lim (S n)) q)) by exact H1.
  erewrite (bind_ok (present_at fst qk (lim (S n)) q p)) by exact H2.
  destruct b; [reflexivity|]. symmetry. apply emplace_same. rewrite He. cbn. lia.
Qed.

Lemma mcall_same_small n c t l m o : room maxn (S n) -> small_rep SC n t l -> enumerates fst lt c l m ->
  mcall kq qk cont conv val0 asq o (mkFlat c t) = mcall kq qk (lim (S n)) conv val0 asq o (mkFlat c t).
Proof.
  intros Hr R EN. destruct o as [o|q|q v|q|q v|pos v]; try reflexivity; cbn [mcall].
  - eapply fcall_same_small; eauto.
  - unfold bind at 1. erewrite index_same by eauto. reflexivity.
  - unfold bind at 1. erewrite index_same by eauto. reflexivity.
Qed.

Lemma mmeans_cap n c l l' m o m' (a : fret T) : length l <= n ->
  mmeans lt conv val0 (Some (S n)) c l l' m o m' a -> mmeans lt conv val0 None c l l' m o m' a.
Proof.
  clear W Hkq Hqk Hasq HSC HRB Hmax. intros L. assert (F : fits (Some (S n)) (length l + 1) = true) by (cbn [fits]; apply Nat.leb_le; lia).
  destruct o; cbn [mmeans]; rewrite ?F; auto. now apply fmeans_cap.
Qed.

Lemma rep_rises n t l : small_rep SC n t l -> small_rep (V := K * T) SC (S n) t l.
Proof. clear. intros (H & F & L). split; [exact H|]. split; [exact F|lia]. Qed.

Lemma map_call n c t l m o : room maxn (S n) -> small_rep SC n t l -> enumerates fst lt c l m ->
  mallowed lt conv c m o ->
  exists t' l' m' a,
    fobserve (mcall kq qk cont conv val0 asq o (mkFlat c t)) = Some (mkFlat c t', a) /\
    mmeans lt conv val0 None c l l' m o m' a /\ small_rep SC (S n) t' l' /\ enumerates fst lt c l' m'.
Proof.
  intros Hr R EN Hok. erewrite mcall_same_small by eauto.
  destruct (mcall_fact lt kq qk (lim (S n)) (Some (S n)) (small_rep SC (S n))
    (limited_conforms moved dflt SC RB maxn HSC HRB Hmax (S n) Hr) conv val0 asq Hasq c (W c) (Hkq c) (Hqk c)
    o t l m (rep_rises n t l R) EN Hok) as (t' & l' & m' & a & H1 & H2 & H3 & H4).
  exists t', l', m', a. split; [exact H1|]. split; [|auto].
  apply mmeans_cap in H2; [exact H2|apply R].
Qed.

Lemma map_run os n st cs : room maxn (n + length os) ->
  Forall2 (FlatSpec.holds fst lt (small_rep SC n)) st cs ->
  legal fst lt (mmeans lt conv val0 None) (mallowed lt conv) cs os -> no_swap os ->
  exists st' rs cs',
    frun (fsys cont (mcall kq qk cont conv val0 asq)) st os = Some (st', rs) /\
    follows fst lt (mmeans lt conv val0 None) cs os rs cs' /\
    Forall2 (FlatSpec.holds fst lt (small_rep SC (n + length os))) st' cs'.
Proof.
  intros Hr HF HL HS.
  eapply (rising_run fst lt cont (small_rep SC) _ _ (mcall kq qk cont conv val0 asq) (n + length os)); eauto.
  - apply rep_rises.
  - intros k c t l m o Hk R EN Hok. apply map_call; auto. eapply room_le; [exact Hr|lia].
  - intros k t u l r Hk. apply (cf_copy _ _ _ (limited_conforms moved dflt SC RB maxn HSC HRB Hmax k
      (room_le maxn k _ Hr ltac:(lia)))).
  - intros k t u l r Hk. apply (cf_move _ _ _ (limited_conforms moved dflt SC RB maxn HSC HRB Hmax k
      (room_le maxn k _ Hr ltac:(lia)))).
Qed.
End Map.

Section Set_.
Context {K Q C : Type}.
Variable lt : C -> K -> K -> bool.
Variable kq : C -> K -> Q -> bool.
Variable qk : C -> Q -> K -> bool.
Variable conv : Q -> K.
Variable asq : K -> Q.
Hypothesis W : forall c, strict_weak_order (lt c).
Hypothesis Hkq : forall c k q, kq c k q = lt c k (conv q).
Hypothesis Hqk : forall c k q, qk c q k = lt c (conv q) k.
Hypothesis Hasq : forall k, conv (asq k) = k.
Variable moved : K -> K.
Variable dflt : K.
Variable SC RB : nat.
Variable maxn : N.
Hypothesis HSC : 0 < SC.
Hypothesis HRB : RB <= SC + 1.
Hypothesis Hmax : (maxn < two63)%N.
Notation cont := (small_cont K moved dflt SC RB maxn).
Notation lim := (limited moved dflt SC RB maxn).
Notation id := (fun k : K => k).

Lemma set_run os n st cs : room maxn (n + length os) ->
  Forall2 (FlatSpec.holds id lt (small_rep SC n)) st cs ->
  legal id lt (fmeans (T := unit) id lt conv None) (fallowed id lt conv) cs os -> no_swap os ->
  exists st' rs cs',
    frun (fsys cont (fcall id kq qk cont asq)) st os = Some (st', rs) /\
    follows id lt (fmeans (T := unit) id lt conv None) cs os rs cs' /\
    Forall2 (FlatSpec.holds id lt (small_rep SC (n + length os))) st' cs'.
Proof.
  intros Hr HF HL HS.
  assert (RR : forall n t l, small_rep SC n t l -> small_rep (V := K) SC (S n) t l).
  { intros k t l (H & F & L). split; [exact H|]. split; [exact F|lia]. }
  eapply (rising_run id lt cont (small_rep SC) _ _ (fcall id kq qk cont asq) (n + length os)); eauto.
  - intros k c t l m o Hk R EN Hok.
    assert (Hr' : room maxn (S k)) by (eapply room_le; [exact Hr|lia]).
    erewrite fcall_same_small by eauto.
    destruct (fcall_fact (T := unit) id lt kq qk (lim (S k)) (Some (S k)) (small_rep SC (S k))
      (limited_conforms moved dflt SC RB maxn HSC HRB Hmax (S k) Hr') conv c (W c) (Hkq c) (Hqk c) asq Hasq
      t l m (RR k t l R) EN o Hok) as (t' & l' & m' & a & H1 & H2 & H3 & H4).
    exists t', l', m', a. split; [exact H1|]. split; [|auto].
    apply fmeans_cap in H2; [exact H2|apply R].
  - intros k t u l r Hk. apply (cf_copy _ _ _ (limited_conforms moved dflt SC RB maxn HSC HRB Hmax k
      (room_le maxn k _ Hr ltac:(lia)))).
  - intros k t u l r Hk. apply (cf_move _ _ _ (limited_conforms moved dflt SC RB maxn HSC HRB Hmax k
      (room_le maxn k _ Hr ltac:(lia)))).
Qed.
End Set_.

(** * Elements whose construction throws *)

(** The container as the lookups see it, before a construction which throws. *)
Definition peeked {V} (cont : container V (@vec V)) : container V (@vec V) :=
  let on2 st := (with_fuse None (fst st), with_fuse None (snd st)) in {|
  c_size := c_size cont;
  c_get := c_get cont;
  c_put i v s := c_put cont i v (with_fuse None s);
  c_call o s := c_call cont o (with_fuse None s);
  c_copy_assign st := c_copy_assign cont (on2 st);
  c_move_assign st := c_move_assign cont (on2 st);
  c_swap st := c_swap cont (on2 st);
  c_equal eqb st := match c_equal cont eqb (on2 st) with Ok r _ => Ok r st | x => x end
|}.

Section Throwing.
Context {E K Q C : Type}.
Variable key : E -> K.
Variable lt : C -> K -> K -> bool.
Variable kq : C -> K -> Q -> bool.
Variable qk : C -> Q -> K -> bool.
Variable conv : Q -> K.
Hypothesis W : forall c, strict_weak_order (lt c).
Hypothesis Hkq : forall c k q, kq c k q = lt c k (conv q).
Hypothesis Hqk : forall c k q, qk c q k = lt c (conv q) k.
Variable moved : E -> E.
Variable dflt : E.
Variable SC RB : nat.
Variable maxn : N.
Hypothesis HSC : 0 < SC.
Hypothesis HRB : RB <= SC + 1.
Hypothesis Hmax : (maxn < two63)%N.
Notation cont := (small_cont E moved dflt SC RB maxn).
Notation lim := (limited moved dflt SC RB maxn).

Lemma fuse_same (t : @vec E) : vfuse t = None -> with_fuse None t = t.
Proof. clear. destruct t. cbn. now intros ->. Qed.

Definition prep n (t : @vec E) (l : list E) : Prop := small_rep SC n (with_fuse None t) l.
Lemma prep_rep n t l : small_rep SC n t l -> prep n t l.
Proof. clear. intros H. unfold prep. rewrite fuse_same; [exact H|apply H]. Qed.

Lemma peeked_conforms n : room maxn n -> conforms (peeked (lim n)) (Some n) (prep n).
Proof.
  intros Hr. pose proof (limited_conforms moved dflt SC RB maxn HSC HRB Hmax n Hr) as CF.
  constructor; cbn [c_size c_get c_put c_call c_copy_assign c_move_assign c_swap c_equal peeked fst snd].
  - intros t l R. exact (cf_fits _ _ _ CF _ _ R).
  - intros t l R. exact (cf_size _ _ _ CF _ _ R).
  - intros t l i e R He. pose proof (cf_get _ _ _ CF _ _ i e R He) as H. revert H.
    cbn [c_get limited small_cont]. unfold SmallVectorModel.at_. rewrite !bind_get. unfold read.
    cbn [with_fuse vb blocks]. destruct (slot_at (vb t, i) (blocks t)) as [[|x]|]; try discriminate.
    now intros [= ->].
  - intros t l i e R Hi. destruct (cf_put _ _ _ CF _ _ i e R Hi) as (t' & H & R').
    exists t'. split; [exact H|now apply prep_rep].
  - intros t l p e R Hp Hf. destruct (cf_insert _ _ _ CF _ _ p e R Hp Hf) as (t' & H & R').
    exists t'. split; [exact H|now apply prep_rep].
  - intros t l p e R Hp Hf. destruct (cf_full _ _ _ CF _ _ p e R Hp Hf) as (t' & H & R').
    exists t'. split; [exact H|now apply prep_rep].
  - intros t l p R Hp. destruct (cf_erase _ _ _ CF _ _ p R Hp) as (t' & H & R').
    exists t'. split; [exact H|now apply prep_rep].
  - intros t l p R Hp. destruct (cf_erase_tail _ _ _ CF _ _ p R Hp) as (t' & H & R').
    exists t'. split; [exact H|now apply prep_rep].
  - intros t l R. destruct (cf_clear _ _ _ CF _ _ R) as (t' & H & R').
    exists t'. split; [exact H|now apply prep_rep].
  - intros t u l k R R2. destruct (cf_copy _ _ _ CF _ _ _ _ R R2) as (t' & u' & H & R' & R2').
    exists t', u'. split; [exact H|]. split; now apply prep_rep.
  - intros t u l k R R2. destruct (cf_move _ _ _ CF _ _ _ _ R R2) as (t' & u' & H & R' & R2').
    exists t', u'. split; [exact H|]. split; now apply prep_rep.
  - intros t u l k R R2. destruct (cf_swap _ _ _ CF _ _ _ _ R R2) as (t' & u' & H & R' & R2').
    exists t', u'. split; [exact H|]. split; now apply prep_rep.
  - intros eqb t u l k R R2 Heq. destruct (cf_equal _ _ _ CF eqb _ _ _ _ R R2 Heq) as (r & H & Hr').
    exists r. rewrite H. auto.
Qed.

Lemma holds_fuse (t : @vec E) l : vholds SC t l -> vholds SC (with_fuse None t) l.
Proof. clear. intros H. exact H. Qed.

Lemma insert_throw c t l m q e : vholds SC t l -> vfuse t = Some 0 -> room maxn (length l + 1) ->
  enumerates key lt c l m -> conv q = key e -> m (key e) = None ->
  exists s', insert key kq qk cont q e (mkFlat c t) = Throw ElemThrow s' /\
    fcmp s' = c /\ SmallVectorModel.destructor (fcont s') = UB.
Proof.
  intros H F Hr EN Hq Hm.
  assert (R : prep (length l) t l).
  { split; [now apply holds_fuse|]. split; [reflexivity|lia]. }
  destruct (lookup_fact key lt kq qk (peeked (lim (length l))) (Some (length l)) (prep (length l))
    (peeked_conforms (length l) (room_le maxn (length l) (length l + 1) Hr ltac:(lia))) conv c (W c)
    (Hkq c) (Hqk c) t l m R EN q) as (p & H1 & _ & Hp & H2).
  rewrite Hq, Hm in H2.
  destruct (insert_throw_ub moved SC RB maxn HSC HRB Hmax t l p e H F Hp Hr) as (t' & E1 & E2).
  exists (mkFlat c t'). unfold insert.
  erewrite (bind_ok (lower_bound key kq cont q)) by exact H1.
  erewrite (bind_ok (present_at key qk cont q p)) by exact H2.
  split; [|split; [reflexivity|exact E2]].
  unfold bind at 1, emplace_at, bind at 1, onc. cbn [fcont fcmp c_call small_cont SmallVectorModel.call].
  unfold position_answer, bind at 1. rewrite E1. reflexivity.
Qed.
End Throwing.
