(** Specification of what calls leave alone: references to elements stay good when the calls
    made meanwhile do not touch these elements. *)
From Coq Require Import List Arith NArith Bool.
From Verif Require Import Base SeqSpec VecCommon.
From Verif Require StaticVectorModel SmallVectorModel PodVectorModel.
Import ListNotations.

Definition rmap {S A} (f : S -> S) (r : res S A) : res S A :=
  match r with
  | Ok a s => Ok a (f s)
  | Throw e s => Throw e (f s)
  | UB => UB
  | Diverge => Diverge
  end.

(** [put x] replaces a part of the state by x. A call does not touch the part if it does the
    same whatever is there, and leaves there whatever was there: it neither reads nor writes
    nor destroys it. (For x, "no object" is among the choices, so a call which so much as
    reads, moves or destroys an object there goes wrong for some x.) *)
Definition untouched {S A X} (put : X -> S -> S) (m : M S A) (s : S) : Prop :=
  forall x, m (put x s) = rmap (put x) (m s).

Section Spec.
Context {V : Type}.

(** Where the elements begin which a call on n elements may touch: as for std::vector, an
    insertion or erasure leaves alone all elements before its position. *)
Definition first_touched (o : vop V) (n : nat) : nat :=
  match o with
  | PushBack _ => n
  | PopBack => n - 1
  | Insert pos _ | InsertN pos _ _ | InsertRange pos _ => pos
  | Erase pos => pos
  | EraseRange first _ => first
  | Resize m | ResizeVal m _ => min m n
  | Clear | AssignN _ _ | AssignRange _ => 0
  end.

(** Positions are in the vector. *)
Definition positions_in (o : vop V) (n : nat) : Prop :=
  match o with
  | Insert pos _ | InsertN pos _ _ | InsertRange pos _ => pos <= n
  | Erase pos => pos < n
  | EraseRange first last => first <= last <= n
  | _ => True
  end.

(** How many elements there are afterwards, if all goes well *)
Definition new_size (o : vop V) (n : nat) : nat :=
  match o with
  | PushBack _ | Insert _ _ => n + 1
  | PopBack | Erase _ => n - 1
  | InsertN _ k _ => n + k
  | InsertRange _ l => n + length l
  | EraseRange first last => n - (last - first)
  | Resize m | ResizeVal m _ => m
  | Clear => 0
  | AssignN m _ => m
  | AssignRange l => length l
  end.
Definition is_insertion (o : vop V) : bool :=
  match o with PushBack _ | Insert _ _ | InsertN _ _ _ | InsertRange _ _ => true | _ => false end.
Definition is_erasure (o : vop V) : bool :=
  match o with PopBack | Erase _ | EraseRange _ _ => true | _ => false end.
Definition is_resize (o : vop V) : bool :=
  match o with Resize _ | ResizeVal _ _ => true | _ => false end.
End Spec.

(** ** The three vectors *)
Section Places.
Context {V : Type}.

(** static_vector: slot i of its array (m_data, static_vector.hpp:672) *)
Definition put_sv (i : nat) (x : slot V) (s : @StaticVectorModel.sv V) : @StaticVectorModel.sv V :=
  StaticVectorModel.with_data (upd (StaticVectorModel.data s) i x) s.

(** small_vector: the slot at a pointer *)
Definition put_vec (p : SmallVectorModel.ptr) (x : slot V) (s : @SmallVectorModel.vec V) : @SmallVectorModel.vec V :=
  SmallVectorModel.with_blocks (SmallVectorModel.put_slot p x (SmallVectorModel.blocks s)) s.

(** small_vector's documentation (small_vector.hpp:84-101): elements are in the static buffer as long
    as they fit, and go back to it when there are less than RevertToStaticBelow. *)
Definition room (SC RB : nat) (s : @SmallVectorModel.vec V) (k : nat) : Prop :=
  if SmallVectorModel.is_static s then k <= SC else RB <= k <= SmallVectorModel.vcap s.
(** resize only ever leaves a buffer which is too small. *)
Definition buffer_stays (SC RB : nat) (o : vop V) (s : @SmallVectorModel.vec V) : Prop :=
  if is_resize o then new_size o (snd (SmallVectorModel.ve s)) <= SmallVectorModel.vcap s
  else room SC RB s (new_size o (snd (SmallVectorModel.ve s))).
End Places.

(** pod_vector: a byte of a block of memory *)
Definition put_byte (b j : nat) (x : N) (s : PodVectorModel.pst) : PodVectorModel.pst :=
  (PodVectorModel.mkMem
     (match nth_error (PodVectorModel.blks (fst s)) b with
      | Some (PodVectorModel.MBlk a l) => upd (PodVectorModel.blks (fst s)) b (PodVectorModel.MBlk a (upd l j x))
      | _ => PodVectorModel.blks (fst s)
      end) (PodVectorModel.ncall (fst s)), snd s).
Definition byte_at (b j : nat) (s : PodVectorModel.pst) : option N :=
  match nth_error (PodVectorModel.blks (fst s)) b with
  | Some (PodVectorModel.MBlk _ l) => nth_error l j
  | _ => None
  end.
(** A vector's elements are in block b from byte o0 to byte oe. *)
Definition lies (s : PodVectorModel.pst) (b o0 oe : nat) : Prop :=
  PodVectorModel.pb (snd s) = Some (b, o0) /\ PodVectorModel.pe (snd s) = Some (b, oe) /\ o0 <= oe.
