(** Specification vocabulary for exceptions while the elements of a static_vector move. *)
From Coq Require Import List Arith NArith.
From Verif Require Import Base SeqSpec VecCommon StaticVectorModel.
Import ListNotations.

Section Spec.
Context {V : Type}.

(** How many elements a call moves: an insertion those behind the position, an erase those
    behind the erased ones. *)
Definition moving (xs : list V) (o : vop V) : nat :=
  match o with
  | Insert pos _ => length xs - pos
  | InsertN pos n _ => if n =? 0 then 0 else length xs - pos
  | InsertRange pos l => if length l =? 0 then 0 else length xs - pos
  | Erase pos => length xs - (pos + 1)
  | EraseRange first last => if first <? last then length xs - last else 0
  | _ => 0
  end.

Definition inserts (o : vop V) : Prop :=
  match o with Insert _ _ | InsertN _ _ _ | InsertRange _ _ => True | _ => False end.
Definition erases (o : vop V) : Prop :=
  match o with Erase _ | EraseRange _ _ => True | _ => False end.

(** What an insertion adds. *)
Definition added (o : vop V) : nat :=
  match o with
  | Insert _ _ => 1 | InsertN _ n _ => n | InsertRange _ l => length l | _ => 0
  end.

(** Two vectors of different lengths, or of the same, as swap tells the shorter from the
    longer: of two of the same length the one passed to it is the shorter. *)
Definition in_order (left_is_shorter : bool) (shorter longer : @sv V) : @sv V * @sv V :=
  if left_is_shorter then (shorter, longer) else (longer, shorter).
Definition shorter_than (left_is_shorter : bool) (xs ys : list V) : Prop :=
  if left_is_shorter then length xs < length ys else length xs <= length ys.
End Spec.
