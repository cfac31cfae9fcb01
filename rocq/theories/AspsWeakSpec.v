(** What the users of a storage may do, said of the state with the weak memory. *)
From Coq Require Import List Arith Bool.
From Verif Require Import Base ConcModel WmModel AspsModel AspsWeakModel.
Import ListNotations.

(** A thread uses its own objects, as long as they live; parameters are objects of their own
    (as AspsSpec.allowed). *)
Definition wusable (s : wst) (t l : nat) : Prop :=
  l <> 0 /\ wown s l = t /\ exists p, nth_error (wobjs s) l = Some (Some p).
Definition wallowed (_ : list (event vcall vres)) (s : wst) (t : nat) (c : call) : Prop :=
  match c with
  | CLoad | CMake _ | CBare _ => True
  | CStore p | CExchange p => wusable s t p
  | CCas e p => wusable s t e /\ wusable s t p /\ e <> p
  | CAlias l _ | CDrop l | CGive l _ => wusable s t l
  end.

(** How often the object managed by [b] has been destroyed. *)
Definition wdestroyed (b : nat) (s : wst) : nat := count_occ Nat.eq_dec (map fst (wgone s)) b.
