(** What a counter shared by threads promises, said without the model's code. *)
From Coq Require Import ZArith List Bool.
From Verif Require Import Base ConcModel ConcSpec AtomicModel.
Import ListNotations.
Open Scope Z_scope.

(** [a] is the value of the type with [bits] bits to which [z] is congruent. *)
Definition value_of (bits : Z) (sgn : bool) (z a : Z) : Prop :=
  (if sgn then - 2 ^ (bits - 1) <= a < 2 ^ (bits - 1) else 0 <= a < 2 ^ bits) /\
  exists k, a = z + k * 2 ^ bits.

(** By how much a call changes the counter; [None] for those which set it. *)
Definition delta (c : acall) : option Z :=
  match c with
  | CLoad | CConv => Some 0
  | CPreInc | CPostInc => Some 1
  | CPreDec | CPostDec => Some (-1)
  | CAdd i => Some i
  | CSub i => Some (- i)
  | CStore _ | CAssign _ | CFrom _ | CSelf => None
  end.

(** One call at a time: what it returns and what it leaves. *)
Inductive aspec (bits : Z) (sgn : bool) (t : nat) (a : Z) : acall -> option Z -> Z -> Prop :=
| sp_load : aspec bits sgn t a CLoad (Some a) a
| sp_conv : aspec bits sgn t a CConv (Some a) a
| sp_store i : aspec bits sgn t a (CStore i) None i
| sp_assign i : aspec bits sgn t a (CAssign i) (Some i) i
| sp_from i : aspec bits sgn t a (CFrom i) None i
| sp_pre_inc a' : value_of bits sgn (a + 1) a' -> aspec bits sgn t a CPreInc (Some a') a'
| sp_post_inc a' : value_of bits sgn (a + 1) a' -> aspec bits sgn t a CPostInc (Some a) a'
| sp_add i a' : value_of bits sgn (a + i) a' -> aspec bits sgn t a (CAdd i) (Some a') a'
| sp_pre_dec a' : value_of bits sgn (a - 1) a' -> aspec bits sgn t a CPreDec (Some a') a'
| sp_post_dec a' : value_of bits sgn (a - 1) a' -> aspec bits sgn t a CPostDec (Some a) a'
| sp_sub i a' : value_of bits sgn (a - i) a' -> aspec bits sgn t a (CSub i) (Some a') a'.

(** Everything a history adds to the counter; only what it adds; only what it takes. *)
Fixpoint total (f : Z -> Z) (h : list (event acall (option Z))) : Z :=
  match h with
  | [] => 0
  | EInv _ c :: h' => match delta c with Some d => f d | None => 0 end + total f h'
  | ERes _ _ :: h' => total f h'
  end.

(** The calls begun in a history. *)
Definition all_calls (P : acall -> Prop) (h : list (event acall (option Z))) : Prop :=
  forall t c, In (EInv t c) h -> P c.
Fixpoint calls (h : list (event acall (option Z))) : nat :=
  match h with
  | [] => 0
  | EInv _ _ :: h' => S (calls h')
  | ERes _ _ :: h' => calls h'
  end.

(** What the users may call at any time: every operation, with arguments of the type, except
    the assignment of a counter to itself. *)
Definition aallowed (bits : Z) (sgn : bool) (_ : list (event acall (option Z))) (_ : Z) (_ : nat)
  (c : acall) : Prop :=
  aarg bits sgn c /\ c <> CSelf.
(** Every operation. *)
Definition aany (bits : Z) (sgn : bool) (_ : list (event acall (option Z))) (_ : Z) (_ : nat)
  (c : acall) : Prop := aarg bits sgn c.
