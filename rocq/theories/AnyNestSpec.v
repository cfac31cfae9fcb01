(** Specification of anys in anys: trees. *)
From Coq Require Import List Arith Bool.
From Verif Require Import Base AnyNestModel.
Import ListNotations.

(** An any: empty, or an object with its members. *)
Inductive tree (A : Type) : Type :=
| E
| N (a : A) (ks : list (tree A)).
Arguments E {A}.
Arguments N {A} a ks.

(** The any at a path, and another one in its place *)
Fixpoint sub {A} (ts : list (tree A)) (k : nat) (p : list nat) : option (tree A) :=
  match nth_error ts k with
  | None => None
  | Some t =>
      match p with
      | [] => Some t
      | k' :: p' => match t with E => None | N _ ks => sub ks k' p' end
      end
  end.
Fixpoint place {A} (ts : list (tree A)) (k : nat) (p : list nat) (t : tree A) : list (tree A) :=
  match p with
  | [] => upd ts k t
  | k' :: p' =>
      match nth_error ts k with
      | Some (N a ks) => upd ts k (N a (place ks k' p' t))
      | _ => ts
      end
  end.
Definition at_path {A} (ts : list (tree A)) (p : path) : option (tree A) := sub ts (fst p) (snd p).
Definition with_path {A} (ts : list (tree A)) (p : path) (t : tree A) : list (tree A) :=
  place ts (fst p) (snd p) t.

(** Neither is inside the other, nor are they the same. *)
Definition begins (p q : path) : Prop := fst p = fst q /\ exists r, snd q = snd p ++ r.
Definition apart (p q : path) : Prop := ~ begins p q /\ ~ begins q p.

Section Spec.
Context {V : Type}.
Variable copyable : V -> bool.
Variable avail : nat -> bool.

(** A copy of a tree is the tree, but on the way, an allocation may fail, and an object may
    not be copyable. The number counts allocations. *)
Fixpoint dup (c : nat) (t : tree V) : nat * option exn :=
  match t with
  | E => (c, None)
  | N v ks =>
      if avail c then
        if copyable v then
          (fix each (c : nat) (ks : list (tree V)) : nat * option exn :=
             match ks with
             | [] => (c, None)
             | t :: ks' =>
                 match dup c t with
                 | (c', None) => each c' ks'
                 | x => x
                 end
             end) (S c) ks
        else (S c, Some BadCast)
      else (S c, Some BadAlloc)
  end.

(** What a call does with the anys, and its answer. In assignments, neither any may be inside
    of what the other one holds. *)
Inductive step (c : nat) (ts : list (tree V)) : op V -> nat -> list (tree V) -> ans V -> Prop :=
| step_emplace p v k t :
    at_path ts p = Some t -> avail c = true ->
    step c ts (Emplace p v k) (S c) (with_path ts p (N v (repeat E k))) Done
| step_emplace_fails p v k t :
    at_path ts p = Some t -> avail c = false ->
    step c ts (Emplace p v k) (S c) (with_path ts p E) (Raised BadAlloc)
| step_copy p q t u c' :
    at_path ts p = Some t -> at_path ts q = Some u -> apart p q -> dup c u = (c', None) ->
    step c ts (Copy p q) c' (with_path ts p u) Done
| step_copy_fails p q t u c' e :
    at_path ts p = Some t -> at_path ts q = Some u -> apart p q -> dup c u = (c', Some e) ->
    step c ts (Copy p q) c' (with_path ts p E) (Raised e)
| step_move p q t u :
    at_path ts p = Some t -> at_path ts q = Some u -> apart p q ->
    step c ts (Move p q) c (with_path (with_path ts p u) q E) Done
| step_move_same p t :
    at_path ts p = Some t -> step c ts (Move p p) c ts Done
| step_reset p t :
    at_path ts p = Some t -> step c ts (Reset p) c (with_path ts p E) Done
| step_peek p t :
    at_path ts p = Some t ->
    step c ts (Peek p) c ts (Saw match t with E => None | N v _ => Some v end).
Inductive steps (c : nat) (ts : list (tree V)) : list (op V) -> nat -> list (tree V) -> list (ans V) -> Prop :=
| steps_nil : steps c ts [] c ts []
| steps_cons o os c1 ts1 a c2 ts2 l :
    step c ts o c1 ts1 a -> steps c1 ts1 os c2 ts2 l -> steps c ts (o :: os) c2 ts2 (a :: l).
End Spec.
