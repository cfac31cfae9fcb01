(** What atomic_shared_ptr_storage promises. *)
From Coq Require Import List Arith Bool.
From Verif Require Import Base ConcModel ConcSpec AspsModel.
Import ListNotations.

(** The storage used by one call at a time holds a pointer. *)
Inductive holds_one (t : nat) (v : sp) : vcall -> vres -> sp -> Prop :=
| h_load : holds_one t v VLoad (VVal (Some v)) v
| h_store p : holds_one t v (VStore (Some p)) VUnit p
| h_exchange p : holds_one t v (VExchange (Some p)) (VVal (Some v)) p
| h_cas_yes e p : px v = px e -> holds_one t v (VCas (Some e) (Some p)) (VBool true (Some e)) p
| h_cas_no e p : px v <> px e -> holds_one t v (VCas (Some e) (Some p)) (VBool false (Some v)) v
| h_other r : holds_one t v VOther r v.

(** A thread uses its own objects, as long as they live; parameters are objects of their own. *)
Definition usable (s : ast) (t l : nat) : Prop :=
  l <> 0 /\ own s l = t /\ exists p, nth_error (objs s) l = Some (Some p).
Definition allowed (_ : list (event vcall vres)) (s : ast) (t : nat) (c : call) : Prop :=
  match c with
  | CLoad | CMake _ | CBare _ => True
  | CStore p | CExchange p => usable s t p
  | CCas e p => usable s t e /\ usable s t p /\ e <> p
  | CAlias l _ | CDrop l | CGive l _ => usable s t l
  end.

(** How many live pointers own what control block [b] manages. *)
Fixpoint owners (b : nat) (o : list (option sp)) : nat :=
  match o with
  | [] => 0
  | Some (Sp _ (Some b')) :: o' => (if b' =? b then 1 else 0) + owners b o'
  | _ :: o' => owners b o'
  end.

(** How often the object managed by [b] has been destroyed. *)
Definition destroyed (b : nat) (s : ast) : nat :=
  count_occ Nat.eq_dec (map (fun e => fst (fst e)) (gone s)) b.

(** std::atomic<std::shared_ptr>, which the same header uses where there is one: pointers are
    compared with their owners. *)
Inductive holds_std (t : nat) (v : sp) : vcall -> vres -> sp -> Prop :=
| hs_load : holds_std t v VLoad (VVal (Some v)) v
| hs_store p : holds_std t v (VStore (Some p)) VUnit p
| hs_exchange p : holds_std t v (VExchange (Some p)) (VVal (Some v)) p
| hs_cas_yes e p : v = e -> holds_std t v (VCas (Some e) (Some p)) (VBool true (Some e)) p
| hs_cas_no e p : v <> e -> holds_std t v (VCas (Some e) (Some p)) (VBool false (Some v)) v
| hs_other r : holds_std t v VOther r v.

(** The pointers the storage is called with. *)
Definition args (c : vcall) : list sp :=
  match c with
  | VStore (Some p) | VExchange (Some p) => [p]
  | VCas (Some e) (Some p) => [e; p]
  | _ => []
  end.
(** One owner for each address. *)
Definition one_owner (l : list sp) : Prop :=
  forall p q, In p l -> In q l -> px p = px q -> cb p = cb q.
