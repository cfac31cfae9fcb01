(** flat_map and flat_set: how many comparisons a call makes. *)
From Coq Require Import List Arith Bool Lia.
From Verif Require Import Base SeqSpec FlatModel FlatExnModel FlatCostSpec FlatCostProofs.
Import ListNotations.

(** Lookups in a flat_map with less than 2^k elements make at most k + 1 comparisons, bounds at
    most k, equal_range at most 2k, and what needs no lookup makes none; and counting them changes
    nothing. For all comparators, whether they order the keys or not, and all containers. *)
Theorem C102_flat_map :
  forall (K T Q C CT : Type) (kq : C -> K -> Q -> bool) (qk : C -> Q -> K -> bool)
    (cont : container (K * T) CT) conv dflt asq (k : nat) (o : mop K T Q) c x t,
  c_size cont t < 2 ^ k ->
  exists d, d <= mcomparisons k o /\
    with_count x d (mcall kq qk cont conv dflt asq o (mkFlat c t))
      (mcall_x (counted kq) (counted qk) cont conv dflt asq o (mkFlat (c, x) t)).
Proof. intros K T Q C CT kq qk cont conv dflt asq k o c x t H. now apply mcall_costs. Qed.
Print Assumptions C102_flat_map.

(** The same for flat_set. *)
Theorem C102_flat_set :
  forall (K T Q C CT : Type) (kq : C -> K -> Q -> bool) (qk : C -> Q -> K -> bool)
    (cont : container K CT) asq (k : nat) (o : fop K Q) c x t,
  c_size cont t < 2 ^ k ->
  exists d, d <= comparisons k o /\
    with_count x d (fcall (T := T) (fun e => e) kq qk cont asq o (mkFlat c t))
      (fcall_x (fun e => e) (counted kq) (counted qk) cont asq o (mkFlat (c, x) t)).
Proof. intros K T Q C CT kq qk cont asq k o c x t H. now apply fcall_costs. Qed.
Print Assumptions C102_flat_set.

(** Seven elements: looking up the last takes 3 comparisons to find it and one to see that it
    is what was looked for; the bound is reached. *)
Example C102_met :
  let l := [(1, true); (2, true); (3, true); (4, true); (5, true); (6, true); (7, false)] in
  let lt := fun (_ : unit) (a b : nat) => a <? b in
  length l < 2 ^ 3 /\
  mcall_x (counted lt) (counted lt) (vec_cont _) (fun q => q) true (fun q => q) (MAt 7)
    (mkFlat (tt, 0) l) = Ok (AVal false) (mkFlat (tt, 4) l) /\
  mcall lt lt (vec_cont _) (fun q => q) true (fun q => q) (MAt 7) (mkFlat tt l) =
    Ok (AVal false) (mkFlat tt l) /\
  mcall_x (counted lt) (counted lt) (vec_cont _) (fun q => q) true (fun q => q)
    (MCommon (FEqual 1)) (mkFlat (tt, 0) l) = Ok (ARange 0 1) (mkFlat (tt, 6) l).
Proof. cbv zeta. split; [cbn; lia|]. repeat split; vm_compute; reflexivity. Qed.
