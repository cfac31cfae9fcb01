(** What adding elements costs: how often elements are carried over from one buffer to another. *)
From Coq Require Import List Arith NArith Bool.
From Verif Require Import Base SeqSpec VecCommon SmallVectorModel SmallVectorSpec PodVectorModel PodVectorSpec.
Import ListNotations.

(** The calls which are counted: all which add or take away elements one at a time or many, except
    assignments (which replace all elements); not reserve and shrink_to_fit, which are there to
    move the elements. *)
Definition adds_or_takes {V} (o : vop V) : bool :=
  match o with AssignN _ _ | AssignRange _ => false | _ => true end.

(** How many elements there are more after a call. *)
Definition more (n n' : nat) : nat := n' - n.

(** ** small_vector *)
Section Small.
Context {V : Type}.
Variable moved : V -> V.
Variable dflt : V.
Variable SC RB : nat.
Variable maxn : N.

Definition size_of (s : @vec V) : nat := snd (ve s).
(** Another buffer than before: the elements which were and are in the vector have been moved
    from one to the other. *)
Definition carried (s s' : @vec V) : nat :=
  if vb s =? vb s' then 0 else Nat.min (size_of s) (size_of s').

(** A history: the elements carried over, and the elements added. *)
Fixpoint small_cost (s : @vec V) (os : list (vop V)) : option (nat * nat * @vec V) :=
  match os with
  | [] => Some (0, 0, s)
  | o :: os' =>
      match observe (call moved dflt SC RB maxn (Seq o) s) with
      | Some (s', _) =>
          match small_cost s' os' with
          | Some (c, a, z) => Some (carried s s' + c, more (size_of s) (size_of s') + a, z)
          | None => None
          end
      | None => None
      end
  end.
Fixpoint small_along (xs : list V) (os : list (vop V)) : Prop :=
  match os with
  | [] => True
  | o :: os' => (adds_or_takes o = true /\ small_ok maxn xs (Seq o)) /\
                small_along (fst (small_step dflt xs (Seq o))) os'
  end.
End Small.

(** ** pod_vector *)
Section Pod.
Variable A : alc.
Variable T : ety.
Variable early : bool.

Definition psize_of (v : pv) : nat :=
  match pb v, pe v with Some (_, o), Some (_, o') => (o' - o) / esz T | _, _ => 0 end.
Definition pod_op (o : podop) : bool :=
  match o with PSeq o => adds_or_takes o | PEmplaceBack => true | _ => false end.
(** Every request made to the allocator is counted as if all elements had to be copied. *)
Definition pcarried (s s' : pst) : nat :=
  if ncall (fst s) =? ncall (fst s') then 0 else psize_of (snd s).

Fixpoint pod_cost (s : pst) (os : list podop) : option (nat * nat * pst) :=
  match os with
  | [] => Some (0, 0, s)
  | o :: os' =>
      match observe (pcall A T early o s) with
      | Some (s', _) =>
          match pod_cost s' os' with
          | Some (c, a, z) => Some (pcarried s s' + c, more (psize_of (snd s)) (psize_of (snd s')) + a, z)
          | None => None
          end
      | None => None
      end
  end.
Fixpoint pod_along (xs : list (list N)) (os : list podop) : Prop :=
  match os with
  | [] => True
  | o :: os' => (pod_op o = true /\ pod_ok T xs o) /\
                forall xs' r, pod_step A T xs o xs' r -> pod_along xs' os'
  end.
End Pod.
