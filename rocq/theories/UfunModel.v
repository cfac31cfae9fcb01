(** Model of include/itlib/ufunction.hpp, with the part of std::function it uses.

    A function object is a resource (a number which goes along when it is moved and which is
    released when its last place is destroyed) and a state, which calls read and change. It may
    also be a null pointer to a function or an empty std::function, which are function objects
    too. Places are where function objects live: parameters, temporaries, the memory of
    std::function; each holds one, or what is left of one moved from.

    std::function<F> is empty or points to the place of a copy_wrapper (which has its own copy
    constructor, so that it never lives in the small buffer). Its move constructor leaves the
    source empty, as all implementations do; its assignments construct a new one and swap.
    Whether memory runs out and whether moving the function object throws are parameters of each
    call. Functions do not use the ufunction they are in. *)
From Coq Require Import List Arith Bool.
From Verif Require Import Base.
Import ListNotations.

Section Ufun.
Context {St A R : Type}.
Variable apply : St -> A -> R * St.            (* a call: result (or exception) and new state *)

Inductive callable : Type :=
| Fun (st : St)
| NullPtr                                      (* null pointer to a function of another type *)
| EmptyFn.                                     (* empty std::function or ufunction<other> *)

Record store : Type := mkStore {
  places : nat -> option (option (nat * callable));   (* Some None: moved from *)
  nplace : nat;
  nres : nat;                                  (* the next resource *)
  ufs : nat -> option (option nat);            (* the ufunctions: empty, or a place *)
  released : list nat                          (* resources, last first *)
}.
Definition init : store := mkStore (fun _ => None) 0 0 (fun _ => None) [].

(** [Dead] is std::terminate. *)
Inductive res (X : Type) : Type :=
| Ok (x : X) (s : store)
| Dead
| UB.
Arguments Ok {X} x s.
Arguments Dead {X}.
Arguments UB {X}.
Definition M X := store -> res X.
Definition ret {X} (x : X) : M X := Ok x.
Definition bind {X Y} (m : M X) (k : X -> M Y) : M Y := fun s =>
  match m s with Ok x s => k x s | Dead => Dead | UB => UB end.
Notation "'do' x <- m ; k" := (bind m (fun x => k)) (at level 200, x binder, m at level 100, k at level 200).
Notation "'run' m ; k" := (bind m (fun _ => k)) (at level 200, m at level 100, k at level 200).

(** Places. *)
Definition new_place (v : option (nat * callable)) : M nat := fun s =>
  Ok (nplace s) (mkStore (setm (places s) (nplace s) (Some v)) (S (nplace s)) (nres s) (ufs s)
                         (released s)).
Definition set_place (i : nat) (v : option (nat * callable)) : M unit := fun s =>
  match places s i with
  | Some _ => Ok tt (mkStore (setm (places s) i (Some v)) (nplace s) (nres s) (ufs s) (released s))
  | None => UB
  end.
Definition get_place (i : nat) : M (option (nat * callable)) := fun s =>
  match places s i with Some v => Ok v s | None => UB end.
Definition end_place (i : nat) : M unit := fun s =>
  match places s i with
  | Some v => Ok tt (mkStore (setm (places s) i None) (nplace s) (nres s) (ufs s)
                             (match v with Some (r, _) => r :: released s | None => released s end))
  | None => UB
  end.
(** The move constructor of FO, or of copy_wrapper<FO> (116, noexcept): a new place. All are
    called in noexcept functions: if it throws, std::terminate. *)
Definition move_new (i : nat) (throws : bool) : M nat :=
  if throws then fun _ => Dead
  else do v <- get_place i; run set_place i None; new_place v.
(** Its copy constructor (112): "should never get to here". *)
Definition copy_new (i : nat) : M nat := do v <- get_place i; fun _ => Dead.

(** The parameter f of the constructor (91) or the assignment (94), made by the caller. *)
Definition new_param (f : callable) : M nat := fun s =>
  new_place (Some (nres s, f))
    (mkStore (places s) (nplace s) (S (nres s)) (ufs s) (released s)).

(** std::function(copy_wrapper<FO>&&): memory, and the move of the wrapper into it. *)
Definition std_function (w : nat) (alloc_fails throws : bool) : M nat :=
  if alloc_fails then fun _ => Dead else move_new w throws.
(** 91, 96: function(copy_wrapper<FO>{std::move(f)}); all temporaries are destroyed *)
Definition wrap (f : callable) (alloc_fails throws : bool) : M nat :=
  do p <- new_param f;
  do w <- move_new p throws;
  do h <- std_function w alloc_fails throws;
  run end_place w;
  run end_place p;
  ret h.
(** 102: function(fptr), a pointer: no wrapper, nothing throws; null makes it empty *)
Definition wrap_ptr (fp : option St) : M (option nat) :=
  match fp with
  | Some st => do h <- new_param (Fun st); ret (Some h)
  | None => ret None
  end.

Definition new_uf (u : nat) (h : option nat) : M unit := fun s =>
  match ufs s u with
  | Some _ => UB
  | None => Ok tt (mkStore (places s) (nplace s) (nres s) (setm (ufs s) u (Some h)) (released s))
  end.
Definition get_uf (u : nat) : M (option nat) := fun s =>
  match ufs s u with Some h => Ok h s | None => UB end.
Definition put_uf (u : nat) (h : option (option nat)) : M unit := fun s =>
  match ufs s u with
  | Some _ => Ok tt (mkStore (places s) (nplace s) (nres s) (setm (ufs s) u h) (released s))
  | None => UB
  end.
(** ~function *)
Definition free (h : option nat) : M unit :=
  match h with Some i => end_place i | None => ret tt end.
(** The assignments of std::function: a new one is swapped with it and destroyed. *)
Definition swap_in (u : nat) (h : option nat) : M unit :=
  do old <- get_uf u;
  run put_uf u (Some h);
  free old.

Inductive op : Type :=
| Make (u : nat)                               (* 78, 80: ufunction(), ufunction(nullptr) *)
| FromObject (u : nat) (f : callable) (alloc_fails throws : bool)        (* 91 *)
| FromPointer (u : nat) (fp : option St)                                (* 102 *)
| FromOther (u w : nat)                        (* 86: the move constructor *)
| SetNull (u : nat)                            (* 81 *)
| SetObject (u : nat) (f : callable) (alloc_fails throws : bool)        (* 94-98 *)
| SetPointer (u : nat) (fp : option St)        (* 103-107 *)
| SetOther (u w : nat)                         (* 87: move assignment *)
| Drop (u : nat)
| HasFn (u : nat)                              (* 109: operator bool *)
| Call (u : nat) (a : A).                      (* 110, 124-128: operator() *)
Inductive out : Type :=
| Nothing
| Bool (b : bool)
| Result (r : R)
| BadCall.                                     (* std::bad_function_call *)

Definition call (o : op) : M out :=
  match o with
  | Make u => run new_uf u None; ret Nothing
  | FromObject u f al th => do h <- wrap f al th; run new_uf u (Some h); ret Nothing
  | FromPointer u fp => do h <- wrap_ptr fp; run new_uf u h; ret Nothing
  | FromOther u w =>
      do h <- get_uf w; run put_uf w (Some None); run new_uf u h; ret Nothing
  | SetNull u => run swap_in u None; ret Nothing
  | SetObject u f al th => do h <- wrap f al th; run swap_in u (Some h); ret Nothing
  | SetPointer u fp => do h <- wrap_ptr fp; run swap_in u h; ret Nothing
  | SetOther u w =>
      do h <- get_uf w; run put_uf w (Some None); run swap_in u h; ret Nothing
  | Drop u => do h <- get_uf u; run put_uf u None; run free h; ret Nothing
  | HasFn u => do h <- get_uf u; ret (Bool (match h with Some _ => true | None => false end))
  | Call u a =>
      do h <- get_uf u;
      match h with
      | None => ret BadCall
      | Some i =>
          do v <- get_place i;
          match v with
          | Some (r, Fun st) =>
              run set_place i (Some (r, Fun (snd (apply st a)))); ret (Result (fst (apply st a)))
          | Some (_, EmptyFn) => ret BadCall
          | _ => fun _ => UB
          end
      end
  end.
Fixpoint calls (os : list op) : M (list out) :=
  match os with
  | [] => ret []
  | o :: os => do x <- call o; do xs <- calls os; ret (x :: xs)
  end.
End Ufun.
Arguments callable : clear implicits.
Arguments store : clear implicits.
Arguments op : clear implicits.
Arguments out : clear implicits.
Arguments Ok {St X} x s.
Arguments Dead {St X}.
Arguments UB {St X}.
