(** Specification of the algorithms, on lists. *)
From Coq Require Import List Arith Bool.
Import ListNotations.

Section Spec.
Context {X : Type}.
(** [i] is the position of the first element for which [m] holds, the length if there is
    none. *)
Definition first_match (m : X -> bool) (l : list X) (i : nat) : Prop :=
  (forall j x, j < i -> nth_error l j = Some x -> m x = false) /\
  (i = length l \/ exists x, nth_error l i = Some x /\ m x = true).
(** The list without that element. *)
Fixpoint without_first (m : X -> bool) (l : list X) : list X :=
  match l with
  | [] => []
  | x :: l' => if m x then l' else x :: without_first m l'
  end.
(** What erase_all_if leaves when the predicate throws behind [pre]: the elements of [pre]
    which are kept; behind them whatever was in the rest of the places of [pre], some moved
    from; and the others. *)
Definition interrupted (moved : X -> X) (m : X -> bool) (pre rest : list X) : list X :=
  let kept := filter (fun x => negb (m x)) pre in
  kept ++ skipn (length kept) (map (fun x => if m x then x else moved x) pre) ++ rest.
End Spec.
