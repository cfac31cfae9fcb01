(** C72: is_noop_convertible; C73: owner_from_member and bit_cast. *)
From Coq Require Import List ZArith NArith Bool Lia.
From Verif Require Import Base VecCommon TraitsModel TraitsSpec TraitsProofs.
Import ListNotations.

Section Props.
Variable base : nat -> nat -> option N.
Variable float_to_float : nat -> nat -> N -> N.
Variable float_to_int : nat -> N -> option Z.
Variable int_to_float : nat -> Z -> N.
Notation noop := (noop base float_to_float float_to_int int_to_float).

(** Where the trait says so, casting every value leaves its bytes as they are: for integers,
    enumerations and bool (but not to enumerations of bool), pointers to classes which are not
    bases of each other at an offset, equal floating point formats. *)
Theorem C72_noop_partial from to : harmless base from to -> is_noop_convertible from to = true ->
  noop from to.
Proof. apply noop_right. Qed.

(** A cast to a base class which does not come first changes the pointer. *)
Theorem C72_base_pointer_refuted c d o : base c d = Some o -> (0 < o < two64 - 8)%N ->
  is_noop_convertible (TPtr c) (TPtr d) = true /\ ~ noop (TPtr c) (TPtr d).
Proof.
  intros E L. split; [reflexivity|]. intros H. destruct (H (VPtr 8)) as (w & Ew & B).
  { cbn. unfold two64. lia. }
  cbn [cast] in Ew. unfold ptr_cast in Ew. rewrite E in Ew. change (8 =? 0)%N with false in Ew. cbv iota in Ew.
  assert (Ew' : w = VPtr ((8 + o) mod two64)) by congruence. subst w.
  rewrite N.mod_small in B by (unfold two64 in *; lia). cbn [bytes] in B. unfold two64 in *; lia.
Qed.
(** So does one to the derived class, and a cast of pointers to members. *)
Theorem C72_member_pointer_refuted c d o : base d c = Some o -> (0 < o < two64 - 8)%N ->
  is_noop_convertible (TMember c) (TMember d) = true /\ ~ noop (TMember c) (TMember d).
Proof.
  intros E L. split; [reflexivity|]. intros H. destruct (H (VMember (Some 0%N))) as (w & Ew & B).
  { cbn. unfold two64. lia. }
  cbn [cast] in Ew. unfold member_cast in Ew. rewrite E in Ew.
  assert (Ew' : w = VMember (Some ((0 + o) mod two64)%N)) by congruence. subst w.
  rewrite N.mod_small in B by (unfold two64 in *; lia). cbn [bytes] in B. unfold two64 in *; lia.
Qed.
(** A number is not an enumerator of an enumeration of bool. *)
Theorem C72_bool_enum_refuted s : is_noop_convertible (TInt (IInt s 1)) (TEnum IBool) = true /\
  ~ noop (TInt (IInt s 1)) (TEnum IBool).
Proof.
  split; [reflexivity|]. intros H. destruct (H (VInt 2)) as (w & Ew & B).
  { destruct s; cbn; lia. }
  injection Ew as <-. discriminate B.
Qed.
(** Different formats of the same size, as std::float16_t and std::bfloat16_t: a number with other
    bits in the other format. *)
Theorem C72_formats_refuted f g n b : f <> g -> (Z.of_N b < modulus n)%Z -> float_to_float f g b <> b ->
  is_noop_convertible (TFloat f n) (TFloat g n) = true /\ ~ noop (TFloat f n) (TFloat g n).
Proof.
  intros ne L D. split; [unfold is_noop_convertible; cbn; now rewrite Nat.eqb_refl|].
  intros H. destruct (H (VFloat b) L) as (w & Ew & B).
  cbn in Ew. rewrite (proj2 (Nat.eqb_neq f g) ne) in Ew. injection Ew as <-. cbn in B. lia.
Qed.
(** nullptr to a null pointer to member, which is not all zero; and types between which there is no
    cast at all. *)
Theorem C72_null_member_refuted c : is_noop_convertible TNull (TMember c) = true /\ ~ noop TNull (TMember c).
Proof.
  split; [reflexivity|]. intros H. destruct (H VNull Logic.I) as (w & Ew & B).
  injection Ew as <-. discriminate B.
Qed.
Theorem C72_no_cast_refuted s : is_noop_convertible (TInt (IInt s 8)) TNull = true /\
  forall v, cast base float_to_float float_to_int int_to_float (TInt (IInt s 8)) TNull v = None.
Proof. split; reflexivity. Qed.
End Props.
Print Assumptions C72_noop_partial.
Print Assumptions C72_base_pointer_refuted.
Print Assumptions C72_member_pointer_refuted.
Print Assumptions C72_bool_enum_refuted.
Print Assumptions C72_formats_refuted.
Print Assumptions C72_null_member_refuted.
Print Assumptions C72_no_cast_refuted.
Example C72_ex : let base := fun c d : nat => if (c =? 1)%nat && (d =? 2)%nat then Some 16%N else None in
  is_noop_convertible (TEnum (IInt true 4)) (TInt (IInt false 4)) = true /\
  harmless base (TEnum (IInt true 4)) (TInt (IInt false 4)) /\
  is_noop_convertible (TPtr 2) (TPtr 3) = true /\ harmless base (TPtr 2) (TPtr 3) /\
  is_noop_convertible (TInt IBool) (TInt (IInt true 1)) = true /\
  is_noop_convertible (TInt (IInt true 1)) (TInt IBool) = false /\
  is_noop_convertible (TInt (IInt true 4)) (TFloat 0 4) = false /\
  is_noop_convertible (TClass 4) (TInt (IInt true 4)) = false /\
  base 1%nat 2%nat = Some 16%N.
Proof. cbn. repeat split; intros; discriminate. Qed.

(** C73: for every owner and member (in the model of the machine; the standard does not define
    &(null->*ptr)). *)
Theorem C73_owner_partial (owner off : N) : (owner < two64)%N -> (off < two64)%N ->
  owner_from_member ((owner + off) mod two64) off = owner.
Proof.
  intros L1 L2. unfold owner_from_member. rewrite N.add_0_l, (N.mod_small off) by exact L2.
  assert (T : two64 <> 0%N) by discriminate.
  destruct (N.lt_ge_cases (owner + off) two64) as [L|L].
  - rewrite (N.mod_small (owner + off)) by exact L.
    replace (owner + off + two64 - off)%N with (owner + 1 * two64)%N by lia.
    rewrite N.mod_add by exact T. now apply N.mod_small.
  - replace ((owner + off) mod two64)%N with (owner + off - two64)%N.
    + replace (owner + off - two64 + two64 - off)%N with owner by lia. now apply N.mod_small.
    + apply N.mod_unique with (q := 1%N); lia.
Qed.
(** Every byte is kept, and casting back gives the bytes again. *)
Theorem C73_bit_cast (src : list N) (n : nat) dst : bit_cast n src = Some dst ->
  dst = src /\ bit_cast (length src) dst = Some src.
Proof.
  unfold bit_cast. destruct (Nat.eqb_spec n (length src)) as [->|]; [|discriminate].
  rewrite firstn_all. intros E. injection E as <-. now rewrite Nat.eqb_refl, firstn_all.
Qed.
Print Assumptions C73_owner_partial.
Print Assumptions C73_bit_cast.
Example C73_ex : owner_from_member 4120 24 = 4096%N /\ bit_cast 4 [1; 2; 3; 4]%N = Some [1; 2; 3; 4]%N /\
  bit_cast 8 [1; 2; 3; 4]%N = None.
Proof. vm_compute. auto. Qed.
