(** Proofs for C115: pod_vector. *)
From Coq Require Import List Arith NArith ZArith Bool Lia.
From Verif Require Import Base SeqSpec VecCommon SmallVectorModel PodVectorModel PtrSpec.
Import ListNotations.
Open Scope nat_scope.

Lemma bind_inv {S A B} (m : M S A) (k : A -> M S B) s b s' :
  bind m k s = Ok b s' -> exists a s1, m s = Ok a s1 /\ k a s1 = Ok b s'.
Proof. unfold bind. destruct (m s); try discriminate. eauto. Qed.
Ltac inv E :=
  let a := fresh "a" in let s1 := fresh "t" in let E1 := fresh "E" in
  apply bind_inv in E; destruct E as (a & s1 & E1 & E).

(** m_begin stays what it is. *)
Definition still {R} (m : M pst R) : Prop := forall s a s', m s = Ok a s' -> pb (snd s') = pb (snd s).
Lemma still_bind {R Q} (f : M pst R) (g : R -> M pst Q) : still f -> (forall r, still (g r)) -> still (bind f g).
Proof. intros Hf Hg s q s' E. inv E. rewrite (Hg _ _ _ _ E). exact (Hf _ _ _ E0). Qed.
Lemma still_ret {R} (r : R) : still (ret r).
Proof. intros s a s' E. injection E as _ <-. reflexivity. Qed.
Lemma still_ub {R} : still (@ub pst R). Proof. intros s a s' E. discriminate. Qed.
Lemma still_get : still (@get pst). Proof. intros s a s' E. injection E as _ <-. reflexivity. Qed.
Lemma still_if {R} (c : bool) (m k : M pst R) : still m -> still k -> still (if c then m else k).
Proof. now destruct c. Qed.
Ltac plain := intros s a s' E; injection E as _ <-; reflexivity.
Lemma still_mbegin : still mbegin. Proof. plain. Qed.
Lemma still_mcap : still mcap. Proof. plain. Qed.
Lemma still_set_pend p : still (set_pend p). Proof. plain. Qed.
Lemma still_set_cap p : still (set_cap p). Proof. plain. Qed.
Lemma still_read p n : still (read_bytes p n).
Proof.
  intros s a s'. unfold read_bytes. destruct p as [[b o]|]; [|discriminate].
  destruct (nth_error _ _) as [[]|]; try discriminate. destruct (_ <=? _); [|discriminate]. intros E. injection E as _ <-. reflexivity.
Qed.
Lemma still_write p l : still (write_bytes p l).
Proof.
  intros s a s'. unfold write_bytes. destruct p as [[b o]|]; [|discriminate].
  destruct (nth_error _ _) as [[]|]; try discriminate. destruct (_ <=? _); [|discriminate]. intros E. injection E as _ <-. reflexivity.
Qed.
Lemma still_padd p n : still (padd p n).
Proof.
  intros s a s'. unfold padd. destruct p as [[b o]|].
  - destruct (nth_error _ _) as [[]|]; try discriminate. destruct (_ <=? _)%N; [|discriminate]. intros E. injection E as _ <-. reflexivity.
  - destruct (_ =? _)%N; [|discriminate]. intros E. injection E as _ <-. reflexivity.
Qed.
Lemma still_malloc A n : still (alloc_malloc A n).
Proof. intros s a s'. unfold alloc_malloc. destruct (a_addr _ _ _); intros E; injection E as _ <-; reflexivity. Qed.

Lemma nth_freed l b a : b < length l -> nth_error (upd l b (MFreed a)) b = Some (MFreed a).
Proof. revert b. induction l as [| x l IH]; intros [| b] H; cbn in *; try lia; [reflexivity | apply IH; lia]. Qed.

Section Pod.
Variable A : alc.
Variable T : ety.

Lemma still_psize : still (psize T).
Proof.
  intros s a s'. unfold psize.
  destruct (pb (snd s)) as [[b o]|] eqn:E, (pe (snd s)) as [[b' o']|]; try discriminate.
  - destruct ((b =? b') && (o <=? o'))%bool; [|discriminate]. intros F. injection F as _ <-. exact E.
  - intros F. injection F as _ <-. exact E.
Qed.
Lemma still_align p : still (align_ptr T p).
Proof.
  unfold align_ptr. destruct p as [[b o]|]; [| apply still_ret].
  apply still_bind; [apply still_get | intro]. apply still_bind; [apply still_padd | intro].
  apply still_bind; [apply still_write | intro]. apply still_ret.
Qed.
Lemma still_a_malloc n : still (a_malloc A T n).
Proof. unfold a_malloc. apply still_if; [apply still_malloc | apply still_bind; [apply still_malloc | intro; apply still_align]]. Qed.
Lemma still_memcpy p q n : still (memcpy p q n).
Proof.
  unfold memcpy, memmove. apply still_if; [apply still_ub | apply still_bind; [apply still_read | intro; apply still_write]].
Qed.
Lemma still_expand p n : still (alloc_expand A p n).
Proof.
  unfold alloc_expand. destruct p as [[b o]|]; [| apply still_ub]. intros s a s'.
  destruct o; [|discriminate]. destruct (nth_error _ b) as [[]|]; try discriminate.
  destruct (a_grant _ _); intros E; injection E as _ <-; reflexivity.
Qed.
Lemma still_real p : still (real_addr A T p).
Proof.
  unfold real_addr. apply still_if; [apply still_ret |]. destruct p as [[b [| o]]|].
  - apply still_ub.
  - apply still_bind; [apply still_read | intro l]. destruct l as [| x [|]]; try apply still_ub.
    apply still_if; [apply still_ret | apply still_ub].
  - apply still_ret.
Qed.
Lemma still_a_expand n : still (a_expand_begin A T n).
Proof.
  unfold a_expand_begin. apply still_bind; [apply still_mbegin | intro]. apply still_bind.
  - apply still_if; [apply still_expand | apply still_bind; [apply still_real | intro; apply still_expand]].
  - intro ok. apply still_if; [apply still_bind; [apply still_set_cap | intro; apply still_ret] | apply still_ret].
Qed.

(** real_addr stays within the block. *)
Lemma real_block b o s p s' : real_addr A T (Some (b, o)) s = Ok p s' -> s' = s /\ exists o', p = Some (b, o').
Proof.
  unfold real_addr. destruct (allocator_aligned A T).
  - intro E. injection E as <- <-. split; [reflexivity | eexists; reflexivity].
  - destruct o as [| o]; [discriminate |]. intro E. inv E.
    assert (t = s) as ->.
    { revert E0. unfold read_bytes. destruct (nth_error _ _) as [[]|]; try discriminate.
      destruct (_ <=? _); [|discriminate]. intro F. injection F as _ <-. reflexivity. }
    destruct a as [| x [|]]; try discriminate.
    destruct (_ <=? _); [|discriminate]. injection E as <- <-. split; [reflexivity | eexists; reflexivity].
Qed.
Lemma free_frees b o s u s' : alloc_free (Some (b, o)) s = Ok u s' ->
  pb (snd s') = pb (snd s) /\ exists a, nth_error (blks (fst s')) b = Some (MFreed a).
Proof.
  unfold alloc_free. destruct o; [|discriminate].
  destruct (nth_error (blks (fst s)) b) as [[a l|]|] eqn:N; try discriminate.
  intro E. injection E as _ <-. cbn [fst snd blks]. split; [reflexivity |]. exists a. apply nth_freed.
  apply nth_error_Some. rewrite N. discriminate.
Qed.
Lemma a_free_frees b o s u s' : pb (snd s) = Some (b, o) -> a_free_begin A T s = Ok u s' ->
  exists a, nth_error (blks (fst s')) b = Some (MFreed a).
Proof.
  intros B E. unfold a_free_begin in E. inv E. unfold mbegin in E0. injection E0 as <- <-. rewrite B in E.
  destruct (allocator_aligned A T).
  - exact (proj2 (free_frees _ _ _ _ _ E)).
  - inv E. destruct (real_block _ _ _ _ _ E0) as [-> [o' ->]]. exact (proj2 (free_frees _ _ _ _ _ E)).
Qed.

(** What must hold afterwards: another block only if the old one was given back. *)
Definition post (b : nat) (s : pst) : Prop :=
  (exists o, pb (snd s) = Some (b, o)) \/ pb (snd s) = None \/
  exists a, nth_error (blks (fst s)) b = Some (MFreed a).

Lemma set_begin_post b p s u s' : (exists a, nth_error (blks (fst s)) b = Some (MFreed a)) ->
  set_begin p s = Ok u s' -> exists a, nth_error (blks (fst s')) b = Some (MFreed a).
Proof. intros H E. injection E as _ <-. exact H. Qed.
Lemma set_cap_mem c s u s' : set_cap c s = Ok u s' -> fst s' = fst s /\ pb (snd s') = pb (snd s).
Proof. intro E. injection E as _ <-. split; reflexivity. Qed.

Lemma malloc_copy_post b o n k s u s' : pb (snd s) = Some (b, o) -> malloc_copy A T n k s = Ok u s' -> post b s'.
Proof.
  intros B E. unfold malloc_copy in E. inv E. apply still_a_malloc in E0. rewrite B in E0.
  inv E. unfold mbegin in E1. injection E1 as <- <-. rewrite E0 in E.
  inv E.
  assert (B2 : pb (snd t0) = Some (b, o)).
  { destruct (k =? 0).
    - injection E1 as _ <-. exact E0.
    - inv E1. apply still_psize in E2. apply still_memcpy in E1. congruence. }
  inv E. apply (a_free_frees _ _ _ _ _ B2) in E2.
  inv E. apply (set_begin_post _ _ _ _ _ E2) in E3.
  apply set_cap_mem in E. right. right. destruct E as [-> _]. exact E3.
Qed.
Lemma realloc_post b o n s u s' : pb (snd s) = Some (b, o) -> a_realloc_begin A T n s = Ok u s' -> post b s'.
Proof.
  intros B E. unfold a_realloc_begin in E. inv E. unfold mbegin in E0. injection E0 as <- <-. rewrite B in E.
  inv E. apply set_cap_mem in E. destruct E as [E1 E2]. unfold post. rewrite E1, E2. clear E1 E2.
  destruct (allocator_aligned A T).
  - inv E0. unfold alloc_realloc in E. destruct o; [|discriminate].
    destruct (nth_error (blks (fst s)) b) as [[a' l|]|] eqn:N; try discriminate.
    destruct (a_addr A (ncall (fst s)) (e2b T n)).
    + injection E as <- <-. unfold set_begin in E0. injection E0 as _ <-. cbn [fst snd blks pb].
      right. right. exists a'.
      assert (LT : b < length (blks (fst s))) by (apply nth_error_Some; rewrite N; discriminate).
      rewrite nth_error_app1; [apply nth_freed; exact LT |].
      clear - LT. revert b LT. generalize (blks (fst s)). induction l as [| x l IH]; intros [| b] LT; cbn in *; try lia.
      specialize (IH b). lia.
    + injection E as <- <-. unfold set_begin in E0. injection E0 as _ <-. cbn [snd pb]. right. left. reflexivity.
  - inv E0. apply still_a_malloc in E. rewrite B in E.
    inv E0. inv E1. apply still_psize in E2. rewrite E in E2.
    inv E1. apply still_memcpy in E3. rewrite E2 in E3.
    apply (a_free_frees _ _ _ _ _ E3) in E1.
    right. right. exact (set_begin_post _ _ _ _ _ E1 E0).
Qed.
Lemma end_at_post b n s u s' : post b s -> end_at T n s = Ok u s' -> post b s'.
Proof.
  intros H E. unfold end_at in E. inv E. unfold mbegin in E0. injection E0 as <- <-.
  inv E. unfold set_pend in E. injection E as _ <-.
  assert (t = s) as ->.
  { revert E0. unfold padd. destruct (pb (snd s)) as [[b' o']|].
    - destruct (nth_error _ _) as [[]|]; try discriminate. destruct (_ <=? _)%N; [|discriminate]. intros E. injection E as _ <-. reflexivity.
    - destruct (_ =? _)%N; [|discriminate]. intros E. injection E as _ <-. reflexivity. }
  exact H.
Qed.
Lemma changed_same old s r s' : begin_changed old s = Ok r s' -> s' = s.
Proof. unfold begin_changed. intro E. inv E. injection E0 as <- <-. injection E as _ <-. reflexivity. Qed.
Lemma post_moved b s s' : moved b s s' -> post b s' -> given_back b s'.
Proof.
  intros (_ & b' & o' & E & N) [[o H] | [H | H]]; [congruence | congruence | exact H].
Qed.

Theorem reserve_moved n s r s' b : preserve A T n s = Ok r s' -> moved b s s' -> given_back b s'.
Proof.
  intros E MV. apply (post_moved b s s' MV). destruct MV as [[o B] _].
  unfold preserve in E. inv E. unfold mcap in E0. injection E0 as <- <-.
  destruct (_ <=? _)%N.
  { injection E as _ <-. left. exists o. exact B. }
  inv E. unfold mbegin in E0. injection E0 as <- <-. rewrite B in E.
  inv E.
  assert (t = s) as ->.
  { revert E0. unfold get_new_capacity. intro E0. inv E0. unfold mcap in E1. injection E1 as <- <-.
    destruct (_ =? 0); [injection E0 as _ <-; reflexivity |].
    destruct (grow_cap _ _ _); [injection E0 as _ <-; reflexivity | discriminate]. }
  inv E. apply still_psize in E1. rewrite B in E1.
  inv E. inv E. apply changed_same in E. subst s'.
  apply (end_at_post b _ _ _ _) in E3; [exact E3 |]. clear E3.
  destruct (a_has_expand A).
  - inv E2. apply still_a_expand in E. rewrite E1 in E.
    destruct a3; [injection E2 as _ <-; left; exists o; exact E |].
    exact (malloc_copy_post _ _ _ _ _ _ _ E E2).
  - destruct (_ <? _)%N; [exact (malloc_copy_post _ _ _ _ _ _ _ E1 E2) | exact (realloc_post _ _ _ _ _ _ E1 E2)].
Qed.
Theorem shrink_moved s r s' b : pshrink_to_fit A T s = Ok r s' -> moved b s s' -> given_back b s'.
Proof.
  intros E MV. pose proof (fun H => post_moved b s s' MV H) as PM. destruct MV as [[o B] [b' [o' [B' N]]]].
  apply PM. clear PM.
  unfold pshrink_to_fit in E. inv E. apply still_psize in E0. rewrite B in E0.
  inv E. unfold mcap in E1. injection E1 as <- <-.
  destruct (_ =? _).
  { injection E as _ <-. left. exists o. exact E0. }
  destruct (_ =? _).
  { exfalso. inv E. inv E. inv E. inv E. injection E as _ <-. unfold set_begin in E3. injection E3 as _ <-.
    unfold set_pend in E4. injection E4 as _ <-. discriminate. }
  inv E. unfold mbegin in E1. injection E1 as <- <-. rewrite E0 in E.
  inv E. inv E. apply changed_same in E. subst s'.
  apply (end_at_post b _ _ _ _) in E2; [exact E2 |]. clear E2.
  destruct (a_has_expand A).
  - inv E1. apply still_a_expand in E. rewrite E0 in E.
    destruct a2; [injection E1 as _ <-; left; exists o; exact E |].
    inv E1. apply still_a_malloc in E2. rewrite E in E2.
    inv E1. apply still_memcpy in E3. rewrite E2 in E3.
    inv E1. apply (a_free_frees _ _ _ _ _ E3) in E4.
    inv E1. apply (set_begin_post _ _ _ _ _ E4) in E5.
    apply set_cap_mem in E1. right. right. destruct E1 as [-> _]. exact E5.
  - exact (realloc_post _ _ _ _ _ _ E0 E1).
Qed.
End Pod.
