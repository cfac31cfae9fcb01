(** What allocators have to do with vectors: the rules of std::allocator_traits, on contents and
    allocator values only. *)
From Coq Require Import List Arith NArith Bool.
From Verif Require Import Base SeqSpec VecCommon SmallVectorModel SmallVectorSpec SmallAllocModel.
Import ListNotations.

(** propagate_on_container_copy_assignment and _move_assignment. *)
Record traits : Type := mkTraits { pocca : bool; pocma : bool }.
(** The traits small_vector behaves by, whatever those of its allocator are. *)
Definition own_rule : traits := mkTraits false true.

Section Spec.
Context {V A : Type}.
Variable dflt : V.
Variable maxn : N.
Variable select : A -> A.
Variable tr : traits.

(** A living vector: its elements and its allocator. *)
Definition acont : Type := option (list V * A).
Definition cont_at (cs : list acont) (i : nat) : option (list V * A) :=
  match nth_error cs i with Some (Some c) => Some c | _ => None end.

Definition std_step (cs : list acont) (o : @aop V A) : list acont * vret :=
  match o with
  | ANew x => (cs ++ [Some ([], x)], RNone)
  | ANewCopy j =>
      match cont_at cs j with Some (xs, x) => (cs ++ [Some (xs, select x)], RNone) | None => (cs, RNone) end
  | ANewCopyWith j x =>
      match cont_at cs j with Some (xs, _) => (cs ++ [Some (xs, x)], RNone) | None => (cs, RNone) end
  | ANewMove j =>
      match cont_at cs j with Some (xs, x) => (upd cs j (Some ([], x)) ++ [Some (xs, x)], RNone) | None => (cs, RNone) end
  | ADestroy i => (upd cs i None, RNone)
  | AOn i op =>
      match cont_at cs i with
      | Some (xs, x) => (upd cs i (Some (fst (small_step dflt xs op), x)), snd (small_step dflt xs op))
      | None => (cs, RNone)
      end
  | ACopyAssign i j =>
      match cont_at cs i, cont_at cs j with
      | Some (xs, x), Some (ys, y) => (upd cs i (Some (ys, if pocca tr then y else x)), RNone)
      | _, _ => (cs, RNone)
      end
  | AMoveAssign i j =>
      match cont_at cs i, cont_at cs j with
      | Some (xs, x), Some (ys, y) =>
          if i =? j then (cs, RNone)
          else (upd (upd cs i (Some (ys, if pocma tr then y else x))) j (Some ([], y)), RNone)
      | _, _ => (cs, RNone)
      end
  end.
Fixpoint std_run (cs : list acont) (os : list (@aop V A)) : list acont * list vret :=
  match os with
  | [] => (cs, [])
  | o :: os' =>
      let '(cs', r) := std_step cs o in
      let '(cs'', rs) := std_run cs' os' in
      (cs'', r :: rs)
  end.

(** The calls of C07, on living vectors. *)
Definition a_ok (cs : list acont) (o : @aop V A) : Prop :=
  match o with
  | ANew _ => True
  | ANewCopy j | ANewCopyWith j _ => exists xs x, cont_at cs j = Some (xs, x) /\ room maxn (length xs)
  | ANewMove j => exists c, cont_at cs j = Some c
  | ADestroy i => exists c, cont_at cs i = Some c
  | AOn i op => exists xs x, cont_at cs i = Some (xs, x) /\ small_ok maxn xs op
  | ACopyAssign i j => exists c ys y, cont_at cs i = Some c /\ cont_at cs j = Some (ys, y) /\ room maxn (length ys)
  | AMoveAssign i j => exists c d, cont_at cs i = Some c /\ cont_at cs j = Some d
  end.
(** Assignments for which small_vector does what the traits say. *)
Definition respected (cs : list acont) (o : @aop V A) : Prop :=
  match o with
  | ACopyAssign i j => pocca tr = false \/ option_map snd (cont_at cs i) = option_map snd (cont_at cs j)
  | AMoveAssign i j => pocma tr = true \/ option_map snd (cont_at cs i) = option_map snd (cont_at cs j)
  | _ => True
  end.
Fixpoint a_along (ok : list acont -> @aop V A -> Prop) (cs : list acont) (os : list (@aop V A)) : Prop :=
  match os with
  | [] => True
  | o :: os' => ok cs o /\ a_along ok (fst (std_step cs o)) os'
  end.

(** The living vectors hold their elements and answer get_allocator() (338-341) with their allocators; the
    destroyed ones left nothing behind. *)
Variable SC : nat.
Definition a_shows (c : @acell V A) (x : acont) : Prop :=
  match c, x with
  | Alive s, Some (xs, y) => holds SC (av s) xs /\ al s = y
  | Gone s, None => all_released SC (av s)
  | _, _ => False
  end.
End Spec.
