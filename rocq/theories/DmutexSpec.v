(** What data_mutex promises. *)
From Coq Require Import List Arith Bool.
From Verif Require Import Base ConcModel ConcSpec DmutexModel.
Import ListNotations.

(** The data used by one thread at a time. *)
Inductive datum (t : nat) (v : nat) : dvcall -> dvres -> nat -> Prop :=
| da_read : datum t v VRead (VVal v) v
| da_write w : datum t v (VWrite w) VNone w
| da_other : datum t v VOther VNone v.

(** The guards of thread [t] which point to the data: the exclusive or the shared ones. *)
Definition points (t : nat) (ex : bool) (x : option guard) : bool :=
  match x with
  | Some (Guard u k PSet) => (u =? t) && eqb (is_ex k) ex
  | _ => false
  end.
Definition guards (t : nat) (ex : bool) (s : dst) : nat := length (filter (points t ex) (gs s)).

(** How often [t] has locked the mutex. *)
Definition holds (t : nat) (ex : bool) (s : dst) : nat :=
  if ex then match mex s with Some (u, d) => if u =? t then d else 0 | None => 0 end
  else count_occ Nat.eq_dec (msh s) t.

(** A thread uses its own guards, accesses the data through those that point to it and writes
    through those to T; it takes a second guard only if the mutex lets it. *)
Definition usable (s : dst) (t l : nat) (g : guard) : Prop :=
  nth_error (gs s) l = Some (Some g) /\ gt g = t.
Definition dallowed (recur : bool) (_ : list (event dvcall dvres)) (s : dst) (t : nat) (c : dcall) : Prop :=
  match c with
  | CNew k _ => guards t (negb (is_ex k)) s = 0 /\ (recur = true \/ guards t (is_ex k) s = 0)
  | CMove l | CDrop l | CTest l => exists g, usable s t l g
  | CRead l => exists g, usable s t l g /\ gp g = PSet
  | CWrite l _ => exists g, usable s t l g /\ gp g = PSet /\ gk g = KUniq
  end.
