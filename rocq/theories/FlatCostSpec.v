(** What counting the comparisons of flat_map and flat_set means. *)
From Coq Require Import List Arith Bool.
From Verif Require Import Base FlatModel.
Import ListNotations.

(** A comparator which counts how often it is called, and otherwise is [f]. *)
Definition counted {A B C CT} (f : C -> A -> B -> bool) (a : A) (b : B)
  : M (flat (C * nat) CT) bool := fun s =>
  Ok (f (fst (fcmp s)) a b) (mkFlat (fst (fcmp s), S (snd (fcmp s))) (fcont s)).

(** [r] is [r0], but for [d] comparisons counted from [x] on. *)
Definition with_count {C CT A} (x d : nat) (r0 : res (flat C CT) A) (r : res (flat (C * nat) CT) A)
  : Prop :=
  let f s := mkFlat (fcmp s, x + d) (fcont s) in
  match r0 with
  | Ok a s => r = Ok a (f s)
  | Throw e s => r = Throw e (f s)
  | UB => r = UB
  | Diverge => r = Diverge
  end.

(** How many comparisons a call may make if there are less than 2^k elements. *)
Definition comparisons {E Q} (k : nat) (o : fop E Q) : nat :=
  match o with
  | FLower _ | FUpper _ => k
  | FFind _ | FCount _ | FEraseKey _ | FInsert _ | FInsertAs _ _ | FEmplace _ => k + 1
  | FEqual _ => 2 * k
  | FErase _ | FClear | FSize => 0
  end.
Definition mcomparisons {K T Q} (k : nat) (o : mop K T Q) : nat :=
  match o with
  | MCommon o' => comparisons k o'
  | MIndex _ | MIndexSet _ _ | MAt _ | MAtSet _ _ => k + 1
  | MIterSet _ _ => 0
  end.
