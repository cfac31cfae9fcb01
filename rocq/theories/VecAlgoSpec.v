(** Specification of the algorithms on a container: [R s xs] says that the container in the
    state [s] holds the elements [xs]. *)
From Coq Require Import List Arith Bool.
From Verif Require Import Base AlgoModel AlgoSpec VecAlgoModel.
Import ListNotations.

Section Spec.
Context {S X V : Type}.
Variable A : vops S X.
Variable eqb : X -> V -> bool.
Variable moved : X -> X.
Variable part : X -> V.
Variable R : S -> list X -> Prop.

(** The value a reference refers to. *)
Definition referred (v : value V) (xs : list X) : option V :=
  match v with Outside v => Some v | PartOf i => option_map part (nth_error xs i) end.

(** Searches: they tell the first match, and change nothing. *)
Definition searches : Prop := forall s xs, R s xs ->
  (forall m, exists i, first_match m xs i /\
     vqfind_if A (fun x => Some (m x)) s = Ok i s /\
     vpfind_if A (fun x => Some (m x)) s = Ok (if i =? length xs then None else Some i) s) /\
  (forall v w, referred v xs = Some w -> exists i, first_match (fun x => eqb x w) xs i /\
     vqfind A eqb part v s = Ok i s /\
     vpfind A eqb part v s = Ok (if i =? length xs then None else Some i) s) /\
  (forall m, vqall_of A (fun x => Some (m x)) s = Ok (forallb m xs) s /\
     vqany_of A (fun x => Some (m x)) s = Ok (existsb m xs) s /\
     vqnone_of A (fun x => Some (m x)) s = Ok (negb (existsb m xs)) s).

(** [r] ends with the answer [a] in a container of [ys]. *)
Definition leaves {B} (r : res S B) (a : B) (ys : list X) : Prop := exists s', r = Ok a s' /\ R s' ys.

(** Erases. *)
Definition erases : Prop := forall s xs, R s xs ->
  (forall m, leaves (verase_first_if A (fun x => Some (m x)) s) (existsb m xs) (without_first m xs) /\
     leaves (verase_all_if A (fun x => Some (m x)) s) (length (filter m xs)) (filter (fun x => negb (m x)) xs)) /\
  (forall v w, referred v xs = Some w ->
     leaves (verase_first A eqb part v s) (existsb (fun x => eqb x w) xs) (without_first (fun x => eqb x w) xs)) /\
  (forall w, leaves (verase_all A eqb part (Outside w) s)
     (length (filter (fun x => eqb x w) xs)) (filter (fun x => negb (eqb x w)) xs)).

(** A predicate which throws for [x] and answers [m] for the elements before it. *)
Definition interruptions : Prop := forall s pre x rest, R s (pre ++ x :: rest) ->
  forall p m, (forall y, In y pre -> p y = Some (m y)) -> p x = None ->
  (if existsb m pre
   then leaves (verase_first_if A p s) true (without_first m pre ++ x :: rest)
   else verase_first_if A p s = Throw ElemThrow s) /\
  exists s', verase_all_if A p s = Throw ElemThrow s' /\ R s' (interrupted moved m pre (x :: rest)).
End Spec.

(** The memory of a pod_vector before and after: the blocks of others are as they were, and
    those the vector has taken or left are freed unless it has them now. *)
From Verif Require Import PodVectorModel PodVectorSpec.
Definition others_kept (bs : list mblk) (v : pv) (bs' : list mblk) (v' : pv) : Prop :=
  length bs <= length bs' /\
  (forall j, j < length bs -> owner v <> Some j -> nth_error bs' j = nth_error bs j /\ owner v' <> Some j) /\
  (forall j, j < length bs' -> owner v' <> Some j -> length bs <= j \/ owner v = Some j ->
     exists a, nth_error bs' j = Some (MFreed a)).
