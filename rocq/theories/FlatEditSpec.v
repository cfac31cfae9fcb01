(** Specification: flat_map and flat_set whose elements are in any order.  Only sequences are
    mentioned: nothing about keys or comparators in the first part. *)
From Coq Require Import List Arith Bool.
From Verif Require Import Base SeqSpec FlatModel FlatSpec FlatEditModel.
Import ListNotations.

Section Shapes.
Context {E Q T : Type}.
Variable cap : option nat.

(** The elements are [l] with one more, [e], somewhere; or there was no room for it. *)
Definition one_more (l : list E) (e : E) (l' : list E) (a : nat -> fret T) (x : fret T) : Prop :=
  if fits cap (length l + 1)
  then exists p, p <= length l /\ l' = insert_at l p [e] /\ x = a p
  else l' = l /\ x = AThrow OutOfRange.

(** What a call can do to the elements [l] and answer, whatever their order is: lookups change
    nothing and give iterators into [l] or its end, insertions add the element or find one,
    erasures erase one element at most. *)
Definition fshape (l : list E) (o : fop E Q) (l' : list E) (a : fret T) : Prop :=
  match o with
  | FInsert e | FInsertAs _ e | FEmplace e =>
      (exists p, p < length l /\ l' = l /\ a = AIns p false) \/
      one_more l e l' (fun p => AIns p true) a
  | FErase pos => l' = erase_at l pos (S pos) /\ a = AIter pos
  | FEraseKey _ =>
      (l' = l /\ a = ACount 0) \/
      (exists p, p < length l /\ l' = erase_at l p (S p) /\ a = ACount 1)
  | FFind _ | FLower _ | FUpper _ => l' = l /\ exists p, p <= length l /\ a = AIter p
  | FCount _ => l' = l /\ (a = ACount 0 \/ a = ACount 1)
  | FEqual _ => l' = l /\ exists p r, p <= r <= length l /\ a = ARange p r
  | FClear => l' = [] /\ a = ANone
  | FSize => l' = l /\ a = ACount (length l)
  end.
Definition ferase_ok (l : list E) (o : fop E Q) : Prop :=
  match o with FErase pos => pos < length l | _ => True end.
End Shapes.

Section MapShapes.
Context {K T Q : Type}.
Variable cap : option nat.
Variable conv : Q -> K.
Variable dflt : T.
Definition mshape (l : list (K * T)) (o : mop K T Q) (l' : list (K * T)) (a : fret T) : Prop :=
  match o with
  | MCommon o' => fshape cap l o' l' a
  | MIndex q =>
      (exists e, In e l /\ l' = l /\ a = AVal (snd e)) \/
      one_more cap l (conv q, dflt) l' (fun _ => AVal dflt) a
  | MIndexSet q v =>
      (exists p e, nth_error l p = Some e /\ l' = upd l p (fst e, v) /\ a = ANone) \/
      one_more cap l (conv q, v) l' (fun _ => ANone) a
  | MAt _ => l' = l /\ (a = AThrow OutOfRange \/ exists e, In e l /\ a = AVal (snd e))
  | MAtSet _ v =>
      (l' = l /\ a = AThrow OutOfRange) \/
      (exists p e, nth_error l p = Some e /\ l' = upd l p (fst e, v) /\ a = ANone)
  | MIterSet pos v => exists e, nth_error l pos = Some e /\ l' = upd l pos (fst e, v) /\ a = ANone
  end.
Definition merase_ok (l : list (K * T)) (o : mop K T Q) : Prop :=
  match o with
  | MCommon o' => ferase_ok l o'
  | MIterSet pos _ => pos < length l
  | _ => True
  end.
End MapShapes.

Section Histories.
Context {E T O : Type}.
Variable cap : option nat.
Variable shape : list E -> O -> list E -> fret T -> Prop.
Variable ok : list E -> O -> Prop.

Definition ushape (l : list E) (o : uop O E) (l' : list E) (a : fret T) : Prop :=
  match o with
  | UCall o' => shape l o' l' a
  | UWrite pos e => l' = upd l pos e /\ a = ANone
  | UPut pos e =>
      if fits cap (length l + 1) then l' = insert_at l pos [e] /\ a = ANone
      else l' = l /\ a = AThrow OutOfRange
  | UDrop pos => l' = erase_at l pos (S pos) /\ a = ANone
  end.
(** The iterators given are good ones. *)
Definition uok (l : list E) (o : uop O E) : Prop :=
  match o with
  | UCall o' => ok l o'
  | UWrite pos _ | UDrop pos => pos < length l
  | UPut pos _ => pos <= length l
  end.
(** They are along a history, whatever the calls answer. *)
Inductive uok_along : list E -> list (uop O E) -> Prop :=
| uok_nil l : uok_along l []
| uok_cons l o os : uok l o -> (forall l' a, ushape l o l' a -> uok_along l' os) -> uok_along l (o :: os).
Inductive ushapes : list E -> list (uop O E) -> list (fret T) -> list E -> Prop :=
| us_nil l : ushapes l [] [] l
| us_cons l o os l1 a rs l2 : ushape l o l1 a -> ushapes l1 os rs l2 -> ushapes l (o :: os) (a :: rs) l2.
End Histories.

(** The new element at [pos] is between its neighbours. *)
Definition between {E K} (key : E -> K) (lt : K -> K -> bool) (l : list E) (pos : nat) (e : E) : Prop :=
  (forall a, 0 < pos -> nth_error l (pos - 1) = Some a -> lt (key a) (key e) = true) /\
  (forall b, nth_error l (S pos) = Some b -> lt (key e) (key b) = true).
