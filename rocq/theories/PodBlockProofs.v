(** No block which a pod_vector asks for is larger than size_t can say. *)
From Coq Require Import List Arith NArith ZArith Bool Lia.
From Verif Require Import Base SeqSpec VecCommon SmallVectorModel PodVectorModel PodVectorSpec.
Import ListNotations.
Open Scope nat_scope.

Definition sizable (b : mblk) : Prop :=
  match b with MBlk _ l => (N.of_nat (length l) < two64)%N | MFreed _ => True end.
Definition sizables (m : mem) : Prop := Forall sizable (blks m).

Definition sizing {R} (f : M pst R) : Prop := forall s, sizables (fst s) ->
  match f s with Ok _ s' | Throw _ s' => sizables (fst s') | _ => True end.

Lemma sz_ret {R} (r : R) : sizing (ret r).
Proof. intros s H. exact H. Qed.
Lemma sz_bind {R Q} (f : M pst R) (g : R -> M pst Q) : sizing f -> (forall r, sizing (g r)) -> sizing (bind f g).
Proof.
  intros Hf Hg s H. unfold bind. specialize (Hf s H). destruct (f s) as [r s'|e s'| |]; auto. now apply Hg.
Qed.
Lemma sz_ub {R} : sizing (ub : M pst R).
Proof. intros s H. exact Logic.I. Qed.
Lemma sz_diverge {R} : sizing (diverge : M pst R).
Proof. intros s H. exact Logic.I. Qed.
Lemma sz_if {R} (b : bool) (f g : M pst R) : sizing f -> sizing g -> sizing (if b then f else g).
Proof. now destruct b. Qed.
Lemma sz_get : sizing get.
Proof. intros s H. exact H. Qed.

Lemma upd_sizable l i b : Forall sizable l -> sizable b -> Forall sizable (upd l i b).
Proof. revert i. induction l as [|x l IH]; intros [|i] H Hb; cbn; auto; inversion H; subst; constructor; auto. Qed.
Lemma nth_sizable l i b : Forall sizable l -> nth_error l i = Some b -> sizable b.
Proof. intros H E. rewrite Forall_forall in H. apply H. eapply nth_error_In; eauto. Qed.

Section Sizes.
Variable A : alc.
Variable T : ety.

Ltac plain := intros s H; exact H.
Lemma sz_set_begin p : sizing (set_begin p). Proof. plain. Qed.
Lemma sz_set_pend p : sizing (set_pend p). Proof. plain. Qed.
Lemma sz_set_cap p : sizing (set_cap p). Proof. plain. Qed.
Lemma sz_mbegin : sizing mbegin. Proof. plain. Qed.
Lemma sz_mend : sizing mend. Proof. plain. Qed.
Lemma sz_mcap : sizing mcap. Proof. plain. Qed.
Lemma sz_read p n : sizing (read_bytes p n).
Proof.
  intros s H. unfold read_bytes. destruct p as [[b o]|]; [|exact Logic.I].
  destruct (nth_error _ b) as [[a l|a]|]; try exact Logic.I. now destruct (_ <=? _).
Qed.
Lemma sz_write p l : sizing (write_bytes p l).
Proof.
  intros s H. unfold write_bytes. destruct p as [[b o]|]; [|exact Logic.I].
  destruct (nth_error _ b) as [[a l'|a]|] eqn:E; try exact Logic.I. destruct (Nat.leb_spec (o + length l) (length l')); [|exact Logic.I].
  cbn [fst]. apply upd_sizable; [exact H|]. pose proof (nth_sizable _ _ _ H E) as S. cbn in *. unfold splice.
  rewrite !app_length, firstn_length, skipn_length. lia.
Qed.
Lemma sz_padd p n : sizing (padd p n).
Proof.
  intros s H. unfold padd. destruct p as [[b o]|]; [|now destruct (_ =? _)%N].
  destruct (nth_error _ b) as [[a l|a]|]; try exact Logic.I. now destruct (_ <=? _)%N.
Qed.
Lemma sz_psize : sizing (psize T).
Proof.
  intros s H. unfold psize. destruct (pb _) as [[b o]|], (pe _) as [[b' o']|]; try exact Logic.I; [|exact H].
  now destruct (_ && _).
Qed.
Lemma sz_malloc n : (n < two64)%N -> sizing (alloc_malloc A n).
Proof.
  intros Hn s H. unfold alloc_malloc. destruct (a_addr _ _ _); cbn [fst]; [|exact H].
  apply Forall_app. split; [exact H|]. constructor; [|constructor]. cbn. unfold junk. rewrite map_length, seq_length. lia.
Qed.
Lemma sz_free p : sizing (alloc_free p).
Proof.
  intros s H. unfold alloc_free. destruct p as [[b o]|]; [|exact H].
  destruct o; [|exact Logic.I]. destruct (nth_error _ b) as [[a l|a]|]; try exact Logic.I. apply upd_sizable; [exact H|exact Logic.I].
Qed.
Lemma cut_length (n : N) (l : list N) k : length (firstn (N.to_nat n) l ++ junk A k (length l) (N.to_nat n - length l)) = N.to_nat n.
Proof. rewrite app_length, firstn_length. unfold junk. rewrite map_length, seq_length. lia. Qed.
Lemma sz_realloc p n : (n < two64)%N -> sizing (alloc_realloc A p n).
Proof.
  intros Hn. unfold alloc_realloc. destruct p as [[b o]|]; [|now apply sz_malloc]. intros s H.
  destruct o; [|exact Logic.I]. destruct (nth_error _ b) as [[a l|a]|]; try exact Logic.I.
  destruct (a_addr _ _ _); cbn [fst]; [|exact H].
  apply Forall_app. split; [apply upd_sizable; [exact H|exact Logic.I]|]. constructor; [|constructor]. cbn. rewrite cut_length. lia.
Qed.
Lemma sz_expand p n : (n < two64)%N -> sizing (alloc_expand A p n).
Proof.
  intros Hn. unfold alloc_expand. destruct p as [[b o]|]; [|apply sz_ub]. intros s H.
  destruct o; [|exact Logic.I]. destruct (nth_error _ b) as [[a l|a]|]; try exact Logic.I.
  destruct (a_grant _ _); cbn [fst]; [|exact H]. apply upd_sizable; [exact H|]. cbn. rewrite cut_length. lia.
Qed.
Lemma mod_lt64 n : (n mod two64 < two64)%N.
Proof. apply N.mod_lt. discriminate. Qed.

Ltac sz := repeat match goal with
  | |- forall _ : _, sizing _ => intros ?
  | |- sizing (ret _) => apply sz_ret
  | |- sizing (bind _ _) => apply sz_bind
  | |- sizing ub => apply sz_ub
  | |- sizing diverge => apply sz_diverge
  | |- sizing (if _ then _ else _) => apply sz_if
  | |- sizing get => apply sz_get
  | |- sizing (set_begin _) => apply sz_set_begin
  | |- sizing (set_pend _) => apply sz_set_pend
  | |- sizing (set_cap _) => apply sz_set_cap
  | |- sizing mbegin => apply sz_mbegin
  | |- sizing mend => apply sz_mend
  | |- sizing mcap => apply sz_mcap
  | |- sizing (read_bytes _ _) => apply sz_read
  | |- sizing (write_bytes _ _) => apply sz_write
  | |- sizing (padd _ _) => apply sz_padd
  | |- sizing (psize _) => apply sz_psize
  | |- sizing (alloc_free _) => apply sz_free
  | |- sizing (alloc_malloc _ _) => apply sz_malloc, mod_lt64
  | |- sizing (alloc_realloc _ _ _) => apply sz_realloc, mod_lt64
  | |- sizing (alloc_expand _ _ _) => apply sz_expand, mod_lt64
  end.
Lemma sz_real_addr p : sizing (real_addr A T p).
Proof. unfold real_addr. sz. destruct p as [[b [|o]]|]; sz. destruct r as [|x [|]]; sz. Qed.
Lemma sz_align_ptr p : sizing (align_ptr T p).
Proof. unfold align_ptr. destruct p as [[b o]|]; sz. Qed.
Lemma sz_a_malloc n : sizing (a_malloc A T n).
Proof. unfold a_malloc, e2b. sz. apply sz_align_ptr. Qed.
Lemma sz_a_free : sizing (a_free_begin A T).
Proof. unfold a_free_begin. sz. apply sz_real_addr. Qed.
Lemma sz_memmove p q n : sizing (memmove p q n).
Proof. unfold memmove. sz. Qed.
Lemma sz_memcpy p q n : sizing (memcpy p q n).
Proof. unfold memcpy. sz. apply sz_memmove. Qed.
Lemma sz_new_capacity n : sizing (get_new_capacity n).
Proof. unfold get_new_capacity. sz. destruct (grow_cap _ _ _); sz. Qed.
Lemma sz_end_at n : sizing (end_at T n).
Proof. unfold end_at. sz. Qed.
Lemma sz_changed p : sizing (begin_changed p).
Proof. unfold begin_changed. sz. Qed.
Ltac sz1 := sz; try first [apply sz_real_addr | apply sz_a_malloc | apply sz_a_free | apply sz_memmove | apply sz_memcpy
  | apply sz_new_capacity | apply sz_end_at | apply sz_changed].
Lemma sz_a_realloc n : sizing (a_realloc_begin A T n).
Proof. unfold a_realloc_begin, e2b. sz1. destruct r; sz1. Qed.
Lemma sz_a_expand n : sizing (a_expand_begin A T n).
Proof. unfold a_expand_begin, e2b. sz1. Qed.
Lemma sz_malloc_copy n s : sizing (malloc_copy A T n s).
Proof. unfold malloc_copy. sz1. Qed.
Ltac sz2 := sz1; try first [apply sz_a_realloc | apply sz_a_expand | apply sz_malloc_copy].
Lemma sz_preserve n : sizing (preserve A T n).
Proof. unfold preserve. sz2. destruct r0; sz2. Qed.
Lemma sz_shrink : sizing (pshrink_to_fit A T).
Proof. unfold pshrink_to_fit. sz2. Qed.
Lemma sz_clear : sizing pclear.
Proof. unfold pclear. sz. Qed.
Lemma sz_resize n : sizing (presize A T n).
Proof. unfold presize, memset0. sz2. apply sz_preserve. Qed.
Lemma sz_value x : sizing (value_of T x).
Proof. unfold value_of. destruct x; sz. Qed.
Lemma sz_fill x k : forall p, sizing (pfill T p k x).
Proof. induction k; intros p; cbn [pfill]; sz; auto. apply sz_value. Qed.
Lemma sz_copy p l : sizing (copy_not_aliased p l).
Proof. unfold copy_not_aliased. destruct l; sz. Qed.
Lemma sz_safe_grow n : sizing (safe_grow A T n).
Proof. unfold safe_grow. sz1. Qed.
Lemma sz_grow_at i n : sizing (pgrow_at A T i n).
Proof. unfold pgrow_at. sz2. apply sz_resize. Qed.
Lemma sz_shrink_at i n : sizing (pshrink_at T i n).
Proof. unfold pshrink_at. sz2. apply sz_clear. Qed.
Lemma sz_emplace : sizing (pemplace_back A T).
Proof. unfold pemplace_back. sz2. apply sz_preserve. Qed.
Lemma sz_read_all : sizing (pread_all T).
Proof. unfold pread_all. sz. Qed.
Ltac sz3 := sz2; try first [apply sz_preserve | apply sz_shrink | apply sz_clear | apply sz_resize | apply sz_value | apply sz_fill
  | apply sz_copy | apply sz_safe_grow | apply sz_grow_at | apply sz_shrink_at | apply sz_emplace].
Lemma sz_assign_copy l : sizing (passign_copy A T l).
Proof. unfold passign_copy. sz3. Qed.
Lemma sz_assign_fill n x : sizing (passign_fill A T n x).
Proof. unfold passign_fill. sz3. Qed.
Lemma sz_call early o : sizing (pcall A T early o).
Proof.
  destruct o as [[]| | |]; cbn [pcall]; unfold no_answer, position_answer, ppush_back, ppop_back, pinsert1, pinsert_n, pinsert_range,
    perase, perase_range, presize_val; sz3; try apply sz_assign_copy; try apply sz_assign_fill.
Qed.
End Sizes.
