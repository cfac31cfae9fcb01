(** What the references and iterators of a dynamic_bitset are: positions in a sequence of booleans. *)
From Coq Require Import List Arith NArith ZArith Bool.
From Verif Require Import Base VecCommon BitsetModel BitsetSpec BitsetRefModel.
Import ListNotations.
Open Scope nat_scope.

(** The bits; the number of words for which there is room for sure; the references (None: no longer
    to be used); the iterators. *)
Record view := View { vbits : list bool; vroom : nat; vrefs : list (option nat); vits : list nat }.

Section Spec.
Variable W : nat.

Definition forget (n : nat) : list (option nat) := repeat None n.

(** The bits become [l']. The references stay as long as the words fit into the room there is. *)
Definition becomes (v : view) (l' : list bool) : view :=
  if words_for W (length l') <=? vroom v then View l' (vroom v) (vrefs v) (vits v)
  else View l' (words_for W (length l')) (forget (length (vrefs v))) (vits v).

Definition with_bits (v : view) (l : list bool) : view := View l (vroom v) (vrefs v) (vits v).
Definition add_ref (v : view) (i : nat) : view := View (vbits v) (vroom v) (vrefs v ++ [Some i]) (vits v).
Definition add_it (v : view) (i : nat) : view := View (vbits v) (vroom v) (vrefs v) (vits v ++ [i]).

Definition the_pos (v : view) (k : nat) : nat := match nth_error (vrefs v) k with Some (Some i) => i | _ => 0 end.
Definition it_pos (v : view) (k : nat) : nat := nth k (vits v) 0.

Definition rstep (v : view) (o : rop) : view * rans :=
  let l := vbits v in
  match o with
  | RCall (BAssign ws) _ =>
      let '(l', a) := bstep W l (BAssign ws) in
      (View l' (Nat.max (vroom v) (words_for W (length l'))) (forget (length (vrefs v))) (vits v), RaBits a)
  | RCall o _ => let '(l', a) := bstep W l o in (becomes v l', RaBits a)
  | RReserve n _ =>
      (if words_for W n <=? vroom v then v
       else View l (words_for W n) (forget (length (vrefs v))) (vits v), RaNone)
  | RRef i => (add_ref v i, RaNone)
  | RTest k => (v, RaBool (nth (the_pos v k) l false))
  | RSet k => (with_bits v (upd l (the_pos v k) true), RaNone)
  | RReset k => (with_bits v (upd l (the_pos v k) false), RaNone)
  | RFlip k => (with_bits v (upd l (the_pos v k) (negb (nth (the_pos v k) l false))), RaNone)
  | RSetTo k b => (with_bits v (upd l (the_pos v k) b), RaNone)
  | RAssign k b => (add_ref (with_bits v (upd l (the_pos v k) b)) (the_pos v k), RaNone)
  | IBegin => (add_it v 0, RaNone)
  | IEnd => (add_it v (length l), RaNone)
  | IInc k => (View l (vroom v) (vrefs v) (upd (vits v) k (it_pos v k + 1)), RaNone)
  | IDec k => (View l (vroom v) (vrefs v) (upd (vits v) k (it_pos v k - 1)), RaNone)
  | IAdd k z => (add_it v (Z.to_nat (Z.of_nat (it_pos v k) + z)), RaNone)
  | ISub k z => (add_it v (Z.to_nat (Z.of_nat (it_pos v k) - z)), RaNone)
  | IDiff j k => (v, RaInt (Z.of_nat (it_pos v j) - Z.of_nat (it_pos v k)))
  | IEq j k => (v, RaBool (it_pos v j =? it_pos v k))
  | IRead k => (v, RaBool (nth (it_pos v k) l false))
  | IRef k => (add_ref v (it_pos v k), RaNone)
  end.

(** What may be called.  A reference may be used when it has not been forgotten and its bit is there;
    positions of iterators are those of the bits, or one behind (as far as a ptrdiff_t can tell). *)
Definition usable (v : view) (k : nat) : Prop :=
  exists i, nth_error (vrefs v) k = Some (Some i) /\ i < length (vbits v).
Definition position (v : view) (z : Z) : Prop :=
  (0 <= z <= Z.of_nat (length (vbits v)) /\ z < Z.of_N (two64 / 2))%Z.
Definition rallowed (v : view) (o : rop) : Prop :=
  let l := vbits v in
  match o with
  | RCall o _ => bok W l o
  | RReserve n _ => size_ok W n
  | RRef i => i < length l
  | RTest k | RSet k | RReset k | RFlip k | RSetTo k _ | RAssign k _ => usable v k
  | IBegin => True
  | IEnd => position v (Z.of_nat (length l))
  | IInc k => k < length (vits v) /\ position v (Z.of_nat (it_pos v k) + 1)
  | IDec k => k < length (vits v) /\ position v (Z.of_nat (it_pos v k) - 1)
  | IAdd k z => k < length (vits v) /\ position v (Z.of_nat (it_pos v k) + z)
  | ISub k z => k < length (vits v) /\ position v (Z.of_nat (it_pos v k) - z)
  | IDiff j k | IEq j k => j < length (vits v) /\ k < length (vits v)
  | IRead k | IRef k => k < length (vits v) /\ it_pos v k < length l
  end.

Fixpoint rhistory (v : view) (os : list rop) : view * list rans :=
  match os with
  | [] => (v, [])
  | o :: os' => let '(v', a) := rstep v o in let '(v'', rs) := rhistory v' os' in (v'', a :: rs)
  end.
Fixpoint rallowed_along (v : view) (os : list rop) : Prop :=
  match os with
  | [] => True
  | o :: os' => rallowed v o /\ rallowed_along (fst (rstep v o)) os'
  end.

(** The user's bitset, references and iterators are what the view says. *)
Definition shows (u : user) (v : view) : Prop :=
  holds_bits W (core (ub_ u)) (vbits v) /\
  vroom v <= capw (ub_ u) /\ length (buf (core (ub_ u))) <= vroom v /\
  Forall2 (fun r o => forall i, o = Some i -> r = Bitref (block (ub_ u)) (i / W) (word_mask W i)) (refs u) (vrefs v) /\
  its u = map N.of_nat (vits v) /\ Forall (fun i => (N.of_nat i < two64 / 2)%N) (vits v).
End Spec.
