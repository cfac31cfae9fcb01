(** Where is_noop_convertible is right. *)
From Coq Require Import List ZArith NArith Bool Lia.
From Verif Require Import Base VecCommon TraitsModel TraitsSpec.
Import ListNotations.
Open Scope Z_scope.

Lemma modulus_pos n : 0 < modulus n.
Proof. unfold modulus. apply Z.pow_pos_nonneg; lia. Qed.
Lemma modulus_even n : n <> 0%nat -> modulus n = 2 * (modulus n / 2).
Proof.
  intros H. apply Z.div_exact; [lia|]. unfold modulus.
  replace (8 * Z.of_nat n) with (Z.succ (8 * Z.of_nat n - 1)) by lia.
  rewrite Z.pow_succ_r by lia. rewrite Z.mul_comm. apply Z_mod_mult.
Qed.
Lemma modulus_8 : modulus 8 = Z.of_N two64.
Proof. reflexivity. Qed.

Lemma to_int_mod s n z : to_int (IInt s n) z mod modulus n = z mod modulus n.
Proof.
  pose proof (modulus_pos n). destruct s; cbn.
  - rewrite Zminus_mod, Zmod_mod, <- Zminus_mod. f_equal. lia.
  - apply Zmod_mod.
Qed.

Lemma bool_byte i z : in_range IBool z -> isize i = 1%nat -> to_int i z mod modulus 1 = z mod modulus 1.
Proof.
  intros H E. destruct i as [|s n]; cbn in E.
  - destruct H as [->| ->]; reflexivity.
  - subst n. apply to_int_mod.
Qed.

Section Proofs.
Variable base : nat -> nat -> option N.
Variable float_to_float : nat -> nat -> N -> N.
Variable float_to_int : nat -> N -> option Z.
Variable int_to_float : nat -> Z -> N.
Notation cast := (cast base float_to_float float_to_int int_to_float).
Notation noop := (noop base float_to_float float_to_int int_to_float).

Lemma ptr_cast_id c d a : aligned base c d -> (a < two64)%N -> ptr_cast base c d a = a.
Proof.
  intros [A1 A2] L. unfold ptr_cast. destruct (N.eqb_spec a 0) as [->|ne]; [reflexivity|].
  destruct (base c d) as [o|]; [rewrite (A1 o eq_refl), N.add_0_r; now apply N.mod_small|].
  destruct (base d c) as [o|]; [|reflexivity]. rewrite (A2 o eq_refl), N.sub_0_r.
  replace (a + two64)%N with (a + 1 * two64)%N by lia. rewrite N.mod_add by (unfold two64; lia).
  now apply N.mod_small.
Qed.
Lemma member_cast_id c d o : aligned base c d -> (o < two64)%N -> member_cast base c d o = o.
Proof.
  intros [A1 A2] L. unfold member_cast.
  destruct (base d c) as [b|]; [rewrite (A2 b eq_refl), N.add_0_r; now apply N.mod_small|].
  destruct (base c d) as [b|]; [|reflexivity]. rewrite (A1 b eq_refl), N.sub_0_r.
  replace (o + two64)%N with (o + 1 * two64)%N by lia. rewrite N.mod_add by (unfold two64; lia).
  now apply N.mod_small.
Qed.

Lemma int_bytes i j z : in_range i z -> isize i = isize j -> (j = IBool -> i = IBool) ->
  to_int j z mod modulus (isize j) = z mod modulus (isize i).
Proof.
  intros Hr E B. destruct j as [|s n]; [rewrite (B eq_refl) in *; now apply bool_byte|].
  rewrite E. apply to_int_mod.
Qed.

Lemma noop_right from to : harmless base from to -> is_noop_convertible from to = true -> noop from to.
Proof.
  intros Hh N v Hv. unfold is_noop_convertible in N. repeat (apply andb_true_iff in N as [N ?]).
  apply Nat.eqb_eq in N.
  destruct from as [i|i|f n|c| |c| |n], to as [j|[|s k]|g m|d| |d| |m]; cbn in Hh, N, H, H0, H1, H2; try contradiction; try discriminate;
    destruct v as [z|b|a|[o|]| |b]; cbn in Hv; try contradiction.
  (* integers and enumerations to such and to pointers *)
  1-10: eexists; split; [reflexivity|]; cbn - [two64 to_int] in *;
       first [ apply int_bytes; auto; intros E; try discriminate E; try subst j; destruct i; cbn in *; congruence
             | rewrite N, modulus_8, Z2N.id; [reflexivity|apply Z.mod_pos_bound; reflexivity] ].
  - (* floating point *)
    subst g. eexists. cbn. rewrite Nat.eqb_refl. split; reflexivity.
  - (* pointers to integers *)
    destruct j as [|s k]; cbn in N; [discriminate|subst k]. eexists. split; [reflexivity|].
    cbn [bytes isize]. rewrite to_int_mod, modulus_8. apply Z.mod_small. lia.
  - eexists. split; [reflexivity|]. cbn. f_equal. now apply ptr_cast_id.
  - eexists. split; reflexivity.
  - destruct j as [|s k]; cbn in N; [discriminate|subst k]. eexists. split; [reflexivity|].
    cbn [bytes isize]. rewrite to_int_mod, modulus_8. apply Z.mod_small. lia.
  - eexists. split; reflexivity.
  - eexists. split; reflexivity.
  - destruct j; [discriminate|contradiction].
  - destruct j; [discriminate|contradiction].
  - eexists. split; [reflexivity|]. cbn. f_equal. apply member_cast_id; [exact Hh|unfold two64 in *; lia].
  - eexists. split; reflexivity.
  - destruct j as [|s k]; cbn in N; [discriminate|subst k]. eexists. split; [reflexivity|].
    cbn [bytes isize]. now rewrite Z.mod_0_l by discriminate.
  - eexists. split; reflexivity.
  - eexists. split; reflexivity.
  - eexists. split; reflexivity.
Qed.
End Proofs.
