(** Specification vocabulary for the small_vector properties. *)
From Coq Require Import List Arith NArith Bool.
From Verif Require Import Base SeqSpec VecCommon SmallVectorModel.
Import ListNotations.

(** The growth sequence in plain arithmetic: c, (3c+1)/2, ... up to the first term which is
    at least [desired]. *)
Inductive grows (cap desired : N) : N -> Prop :=
| grows_enough : (desired <= cap)%N -> grows cap desired cap
| grows_more c : (cap < desired)%N -> grows ((cap * 3 + 1) / 2)%N desired c -> grows cap desired c.

Section Spec.
Context {V : Type}.
Variable dflt : V.
Variable SC : nat.
Variable maxn : N.

(** The vector holds the sequence [xs]: the objects alive in its current buffer are exactly
    the elements of [xs] in order, everything else is raw; its other storage holds nothing
    (the static buffer, when not in use, has no object in it; all other blocks which were
    ever allocated have been given back). *)
Definition holds (s : @vec V) (xs : list V) : Prop :=
  ve s = (vb s, length xs) /\
  length xs <= vcap s /\
  nth_error (blocks s) (vb s) =
    Some (Blk (map Live xs ++ repeat Raw (vcap s - length xs))) /\
  (vb s = 0 -> vcap s = SC) /\
  (vb s <> 0 -> SC <= vcap s /\ nth_error (blocks s) 0 = Some (Blk (repeat Raw SC))) /\
  (forall j, j <> 0 -> j <> vb s -> j < length (blocks s) ->
     nth_error (blocks s) j = Some Freed).

(** Nothing is alive anywhere and every block is given back. *)
Definition all_released (s : @vec V) : Prop :=
  nth_error (blocks s) 0 = Some (Blk (repeat Raw SC)) /\
  forall j, j <> 0 -> j < length (blocks s) -> nth_error (blocks s) j = Some Freed.

(** The objects alive are exactly the size() elements of the current buffer. *)
Definition exactly_current_alive (s : @vec V) : Prop :=
  fst (ve s) = vb s /\ snd (ve s) <= vcap s /\
  forall b i, (exists v, slot_at (b, i) (blocks s) = Some (Live v)) <->
              (b = vb s /\ i < snd (ve s)).

(** At most one dynamic block is held, the current buffer, of m_capacity slots. *)
Definition one_block (s : @vec V) : Prop :=
  (exists l, nth_error (blocks s) (vb s) = Some (Blk l) /\ length l = vcap s) /\
  forall j, j <> 0 -> j <> vb s -> j < length (blocks s) -> nth_error (blocks s) j = Some Freed.

(** Is the position or range a call names inside the vector? *)
Definition valid_pos (xs : list V) (o : vop V) : bool :=
  match o with
  | Insert pos _ | InsertN pos _ _ | InsertRange pos _ => pos <=? length xs
  | Erase pos => pos <? length xs
  | EraseRange first last => (last <? first) || (last <=? length xs)
  | _ => true
  end.

(** Effect and answer of a call: what SeqSpec says for an unbounded sequence; an invalid
    position is answered by out_of_range; the storage calls change no content. *)
Definition small_step (xs : list V) (o : @smallop V) : list V * vret :=
  match o with
  | Seq o => if valid_pos xs o then spec_step dflt None xs o else (xs, RThrow OutOfRange)
  | Reserve _ | ShrinkToFit | RevertToStatic => (xs, RNone)
  end.

(** [n] elements and the spare capacity that comes with them can be allocated. *)
Definition room (n : nat) : Prop := (N.of_nat (n + n / 2) <= maxn)%N.

(** The calls allowed in a history: the result stays within what the allocator can give,
    and no empty insertion or erase before the end ([C12]). *)
Definition small_ok (xs : list V) (o : @smallop V) : Prop :=
  match o with
  | Seq (PushBack _) | Seq (Insert _ _) => room (length xs + 1)
  | Seq (InsertN pos n _) => room (length xs + n) /\ (n = 0 -> length xs <= pos)
  | Seq (InsertRange pos l) => room (length xs + length l) /\ (l = [] -> length xs <= pos)
  | Seq (EraseRange first last) => first = last -> length xs <= first
  | Seq (Resize n) | Seq (ResizeVal n _) | Seq (AssignN n _) | Reserve n => room n
  | Seq (AssignRange l) => room (length l)
  | ShrinkToFit | RevertToStatic => room (length xs)
  | _ => True
  end.

(** The same for a family of vectors. *)
Definition small_sys_step (cs : list (list V)) (o : @smallsys V) : list (list V) * vret :=
  match o with
  | On i op =>
      match nth_error cs i with
      | None => (cs, RNone)
      | Some xs => let '(xs', r) := small_step xs op in (upd cs i xs', r)
      end
  | CopyAssign i j =>
      match nth_error cs j with None => (cs, RNone) | Some ys => (upd cs i ys, RNone) end
  | MoveAssign i j =>
      match nth_error cs j with
      | None => (cs, RNone)
      | Some ys => if i =? j then (cs, RNone) else (upd (upd cs i ys) j [], RNone)
      end
  end.

Definition small_sys_ok (cs : list (list V)) (o : @smallsys V) : Prop :=
  match o with
  | On i op => exists xs, nth_error cs i = Some xs /\ small_ok xs op
  | CopyAssign i j => i < length cs /\ exists ys, nth_error cs j = Some ys /\ room (length ys)
  | MoveAssign i j => i < length cs /\ j < length cs
  end.

Fixpoint small_sys_run (cs : list (list V)) (os : list (@smallsys V))
  : list (list V) * list vret :=
  match os with
  | [] => (cs, [])
  | o :: os' =>
      let '(cs', r) := small_sys_step cs o in
      let '(cs'', rs) := small_sys_run cs' os' in
      (cs'', r :: rs)
  end.

Fixpoint small_sys_along (cs : list (list V)) (os : list (@smallsys V)) : Prop :=
  match os with
  | [] => True
  | o :: os' => small_sys_ok cs o /\ small_sys_along (fst (small_sys_step cs o)) os'
  end.
End Spec.
