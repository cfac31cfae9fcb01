(** Theorems about the string helpers. *)
From Coq Require Import List Arith NArith Bool Lia.
From Verif Require Import Base VecCommon SpanModel SpanProofs StrutilModel StrutilSpec StrutilProofs.
Import ListNotations.
Open Scope N_scope.

(** * C44 *)
Theorem C44_starts_ends {C} (cmp : C -> C -> comparison) (mem : N -> option C) (v w : sv) (t p : list C) :
  (forall x y, cmp x y = Eq <-> x = y) -> views mem v t -> views mem w p ->
  (exists b, starts_with cmp mem v w tt = Ok b tt /\ (b = true <-> exists r, t = p ++ r)) /\
  (exists b, ends_with cmp mem v w tt = Ok b tt /\ (b = true <-> exists r, t = r ++ p)).
Proof. intros E V W. split; [now apply starts_ok|now apply ends_ok]. Qed.
Print Assumptions C44_starts_ends.

(** The loops end, and what is left is the part of the original view after, or
    before, all repetitions. Nothing is removed for an empty pattern. *)
Theorem C44_remove_all {C} (cmp : C -> C -> comparison) (mem : N -> option C) (v w : sv) (t p : list C) (fuel : nat) :
  (forall x y, cmp x y = Eq <-> x = y) -> views mem v t -> views mem w p -> (length t < fuel)%nat ->
  (p = [] -> remove_prefix_all cmp mem fuel v w tt = Ok v tt /\ remove_suffix_all cmp mem fuel v w tt = Ok v tt) /\
  (p <> [] ->
    (exists k r, t = times k p ++ r /\ ~ prefix_of p r /\
      remove_prefix_all cmp mem fuel v w tt
      = Ok (mkSv (sv_ptr v + N.of_nat (length (times k p))) (N.of_nat (length r))) tt) /\
    (exists k r, t = r ++ times k p /\ ~ suffix_of p r /\
      remove_suffix_all cmp mem fuel v w tt = Ok (mkSv (sv_ptr v) (N.of_nat (length r))) tt)).
Proof.
  intros E V W F. pose proof W as (_ & EW). split.
  - intros ->. unfold remove_prefix_all, remove_suffix_all. rewrite EW. split; reflexivity.
  - intros P. unfold remove_prefix_all, remove_suffix_all.
    rewrite (proj2 (N.eqb_neq _ _)) by (rewrite EW; destruct p; cbn; [congruence|lia]).
    split; [now apply remove_prefix_ok|now apply remove_suffix_ok].
Qed.
Print Assumptions C44_remove_all.

Theorem C44_make_string_view {C} (mem : N -> option C) (a : N) (t : list C) :
  text_at mem a t ->
  views mem (make_string_view_p a (a + N.of_nat (length t))) t /\
  views mem (make_string_view a (a + N.of_nat (length t))) t.
Proof.
  intros T. pose proof T as (_ & B).
  assert (views mem (make_string_view_p a (a + N.of_nat (length t))) t) as V.
  { split; [exact T|]. cbn [make_string_view_p sv_size]. rewrite usub_le; lia. }
  split; [exact V|]. unfold make_string_view. destruct (N.eqb_spec a (a + N.of_nat (length t))) as [Q|Q]; [|exact V].
  assert (t = []) as -> by (destruct t; cbn in *; [reflexivity|lia]).
  split; [split; [intros [|i] c; discriminate|]|]; cbn; [rewrite two64_eq; lia|reflexivity].
Qed.
Print Assumptions C44_make_string_view.

Definition demo_text : list N := [1; 2; 1; 2; 1; 3; 1; 2; 1; 2].
Definition demo_pattern : list N := [1; 2].
Definition demo_mem (p : N) : option N :=
  if p <? 200 then nth_error demo_text (N.to_nat (p - 100)) else nth_error demo_pattern (N.to_nat (p - 200)).
Lemma demo_views : views demo_mem (mkSv 100 10) demo_text /\ views demo_mem (mkSv 200 2) demo_pattern.
Proof.
  split; (split; [split|reflexivity]); try reflexivity.
  - intros i c Hi. assert (i < 10)%nat by (apply (nth_error_Some demo_text i); congruence).
    unfold demo_mem. cbn [sv_ptr]. rewrite (proj2 (N.ltb_lt _ _)) by lia. rewrite <- Hi. f_equal. lia.
  - intros i c Hi. unfold demo_mem. cbn [sv_ptr]. rewrite (proj2 (N.ltb_ge _ _)) by lia. rewrite <- Hi. f_equal. lia.
Qed.
Example C44_example :
  (forall x y, N.compare x y = Eq <-> x = y) /\
  starts_with N.compare demo_mem (mkSv 100 10) (mkSv 200 2) tt = Ok true tt /\
  ends_with N.compare demo_mem (mkSv 100 9) (mkSv 200 2) tt = Ok false tt /\
  remove_prefix_all N.compare demo_mem 11 (mkSv 100 10) (mkSv 200 2) tt = Ok (mkSv 104 6) tt /\
  remove_suffix_all N.compare demo_mem 11 (mkSv 100 10) (mkSv 200 2) tt = Ok (mkSv 100 6) tt.
Proof. split; [exact N.compare_eq_iff|]. repeat split; reflexivity. Qed.
