(** Specification: anys as cells which hold an object or are in the middle of building or
    destroying one.  Nothing about blocks, pointers or memory. *)
From Coq Require Import List Arith Bool.
From Verif Require Import Base VecCommon AnyHookModel.
Import ListNotations.

Inductive cell : Type :=
| CEmpty
| CHolds (o : obj)
| CBusy (o : obj).    (* its constructor or destructor runs *)

Inductive out : Type :=
| Done (cs : list cell) (r : list ans)
| Stuck    (* a call which changes a busy any, or names an any which does not exist *)
| More.    (* the depth is not enough *)

Definition then_ (x : out) (f : list cell -> list ans -> out) : out :=
  match x with Done cs r => f cs r | Stuck => Stuck | More => More end.

Section Spec.
Variable body : list act -> list cell -> out.

Definition sreset (i : nat) (cs : list cell) : out :=
  match nth_error cs i with
  | Some CEmpty => Done cs []
  | Some (CHolds o) =>
      then_ (body (odtor o) (upd cs i (CBusy o))) (fun cs' r => Done (upd cs' i CEmpty) r)
  | _ => Stuck
  end.
Definition semplace (i : nat) (o : obj) (cs : list cell) : out :=
  then_ (sreset i cs) (fun cs1 r0 =>
  then_ (body (octor o) (upd cs1 i (CBusy o))) (fun cs2 r =>
  Done (upd cs2 i (CHolds o)) (r0 ++ r))).
Definition smove (i j : nat) (cs : list cell) : out :=
  if i =? j then (if i <? length cs then Done cs [] else Stuck) else
  then_ (sreset i cs) (fun cs1 r =>
  match nth_error cs1 j with
  | Some (CBusy _) | None => Stuck
  | Some c => Done (upd (upd cs1 i c) j CEmpty) r
  end).
End Spec.

Definition sseq (f : act -> list cell -> out) : list act -> list cell -> out :=
  fix go l cs := match l with
    | [] => Done cs []
    | a :: l' => then_ (f a cs) (fun cs1 r => then_ (go l' cs1) (fun cs2 r' => Done cs2 (r ++ r')))
    end.

Definition shas (c : cell) : bool := match c with CEmpty => false | _ => true end.
Definition stype (c : cell) : option nat := match c with CEmpty => None | CHolds o | CBusy o => Some (oty o) end.

Fixpoint sexec (n : nat) (a : act) (cs : list cell) : out :=
  match n with
  | 0 => More
  | S n' =>
      let body := sseq (sexec n') in
      match a with
      | Has i => match nth_error cs i with Some c => Done cs [AHas (shas c)] | None => Stuck end
      | TypeOf i => match nth_error cs i with Some c => Done cs [AType (stype c)] | None => Stuck end
      | Reset i => sreset body i cs
      | Emplace i o => semplace body i o cs
      | Move i j => smove body i j cs
      end
  end.
Definition sexec_all (n : nat) : list act -> list cell -> out := sseq (sexec n).

(** The memory of the anys [cs]: every any which is not empty has a block of its own, with its
    object alive unless the any is busy, and every other block was given back. *)
Definition in_memory (s : st) (cs : list cell) : Prop :=
  length (ptrs s) = length cs /\
  (forall i, nth_error cs i = Some CEmpty -> nth_error (ptrs s) i = Some None) /\
  (forall i o, nth_error cs i = Some (CHolds o) ->
     exists b, nth_error (ptrs s) i = Some (Some b) /\
       nth_error (mem s) b = Some (Block (osize o) (Some (osize o)) Alive o)) /\
  (forall i o, nth_error cs i = Some (CBusy o) ->
     exists b h p, nth_error (ptrs s) i = Some (Some b) /\ nth_error (mem s) b = Some (Block (osize o) h p o) /\
       (p = Building /\ h = None \/ p = Ending /\ h = Some (osize o))) /\
  (forall i j b, nth_error (ptrs s) i = Some (Some b) -> nth_error (ptrs s) j = Some (Some b) -> i = j) /\
  (forall b x, nth_error (mem s) b = Some x -> x = Gone \/ exists i, nth_error (ptrs s) i = Some (Some b)).

(** The number of calls in a program, those of constructors and destructors included. *)
Fixpoint calls (a : act) : nat :=
  let many := fix many l := match l with [] => 0 | a :: l' => calls a + many l' end in
  match a with
  | Emplace _ (Obj _ _ c d) => S (many c + many d)
  | _ => 1
  end.
Definition calls_all (l : list act) : nat := fold_right (fun a n => calls a + n) 0 l.

(** Programs in which an object only changes anys after the one it is in: [lo] is the first any
    which may be changed, [k] the number of anys. *)
Fixpoint layered (k lo : nat) (a : act) : Prop :=
  let many := fix many m l := match l with [] => True | a :: l' => layered k m a /\ many m l' end in
  match a with
  | Has i | TypeOf i => i < k
  | Reset i => lo <= i < k
  | Emplace i (Obj _ _ c d) => lo <= i < k /\ many (S i) c /\ many (S i) d
  | Move i j => lo <= i /\ i <= j /\ j < k
  end.

(** Anys whose constructor or destructor runs stay as they are, pointer, object and all. *)
Definition leaves_busy (s : st) (cs : list cell) (s' : st) (cs' : list cell) : Prop :=
  length cs' = length cs /\
  forall i o, nth_error cs i = Some (CBusy o) ->
    nth_error cs' i = Some (CBusy o) /\
    forall b, nth_error (ptrs s) i = Some (Some b) ->
      nth_error (ptrs s') i = Some (Some b) /\ nth_error (mem s') b = nth_error (mem s) b.
