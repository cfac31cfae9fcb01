(** Specification of mem_ostreambufs which are copied and moved: each is a file of its own
    (StreamSpec.v). [Taken] is a buffer which may only be cleared, assigned to or destroyed. *)
From Coq Require Import List Arith NArith ZArith Bool.
From Verif Require Import Base VecCommon StreamModel StreamSpec StreamCopyModel.
Import ListNotations.
Open Scope nat_scope.

Section Spec.
Context {C : Type}.
Variable P : policy.
(** Whether moved containers hand their memory over, whatever their capacity *)
Variable steals : bool.

Definition files : Type := nat -> option (file C).
Definition set_file (f : files) (i : nat) (x : option (file C)) : files :=
  fun j => if j =? i then x else f j.

(** What a buffer which is moved hands on *)
Definition handed (f : files) (i : nat) : option (file C) :=
  if steals then f i else Some Taken.

Definition cp_step (f : files) (o : wop C) : files * oans C :=
  match o with
  | WNew i reserve =>
      if max_sz P <? reserve then (f, OaThrow LengthError)
      else (set_file f i (Some (Held [] 0)), OaNone)
  | WCall i o =>
      match f i with
      | Some x => let '(x', a) := fstep P x o in (set_file f i (Some x'), a)
      | None => (f, OaNone)
      end
  | WCopy j _ => (set_file f j (Some Taken), OaNone)
  | WMove j i | WMoveAssign j i => (set_file (set_file f j (handed f i)) i (Some Taken), OaNone)
  | WCopyAssign j i => (if j =? i then f else set_file f j (Some Taken), OaNone)
  | WDestroy i => (set_file f i None, OaNone)
  end.

(** Objects are made where there is none and used where there is one, and their calls are those
    of C32; no object is moved to itself. *)
Definition cp_ok (f : files) (o : wop C) : Prop :=
  match o with
  | WNew i _ => f i = None
  | WCall i o => exists x, f i = Some x /\ fok x o
  | WCopy j i | WMove j i => f j = None /\ f i <> None
  | WCopyAssign j i => f j <> None /\ f i <> None
  | WMoveAssign j i => f j <> None /\ f i <> None /\ j <> i
  | WDestroy i => f i <> None
  end.
Fixpoint cp_along (f : files) (os : list (wop C)) : Prop :=
  match os with
  | [] => True
  | o :: os' => cp_ok f o /\ cp_along (fst (cp_step f o)) os'
  end.
Fixpoint cp_run (f : files) (os : list (wop C)) : files * list (oans C) :=
  match os with
  | [] => (f, [])
  | o :: os' =>
      let '(f', a) := cp_step f o in
      let '(f'', rs) := cp_run f' os' in (f'', a :: rs)
  end.
Definition no_files : files := fun _ => None.
End Spec.
Arguments files : clear implicits.
