(** Specification vocabulary for exceptions while the elements of a small_vector move. *)
From Coq Require Import List Arith NArith Bool.
From Verif Require Import Base SeqSpec VecCommon SmallVectorModel.
Import ListNotations.

Section Spec.
Context {V : Type}.

(** The objects alive in a block, and in all the storage a vector ever had. *)
Definition live_in (b : block V) : nat :=
  match b with
  | Blk l => length (filter (fun x => match x with Live _ => true | Raw => false end) l)
  | Freed => 0
  end.
Definition alive (s : @vec V) : nat := list_sum (map live_in (blocks s)).

(** The blocks from the allocator which were not given back. *)
Definition held (s : @vec V) : nat :=
  length (filter (fun b => match b with Blk _ => true | Freed => false end) (tl (blocks s))).

(** The vector is in the buffer [b] of capacity [c] and its elements are [xs]: all of them
    are alive and nothing else is alive in that buffer. *)
Definition in_buffer (s : @vec V) (b c : nat) (xs : list V) : Prop :=
  vb s = b /\ vcap s = c /\ ve s = (b, length xs) /\
  nth_error (blocks s) b = Some (Blk (map Live xs ++ repeat Raw (c - length xs))).

(** Will [n] elements be put in another buffer, when the vector is as in [s] and is inserted
    into? *)
Definition elsewhere (RB : nat) (s : @vec V) (n : nat) : Prop :=
  vcap s < n \/ (vb s <> 0 /\ n < RB).

(** The calls which add elements or capacity and for that move all the elements to another
    buffer, with the number of elements this buffer is for. *)
Definition relocates (RB : nat) (s : @vec V) (xs : list V) (o : @smallop V) (m : nat) : Prop :=
  match o with
  | Seq (PushBack _) => m = length xs + 1 /\ elsewhere RB s m
  | Seq (Insert pos _) => m = length xs + 1 /\ elsewhere RB s m /\ pos <= length xs
  | Seq (InsertN pos n _) => m = length xs + n /\ elsewhere RB s m /\ pos <= length xs
  | Seq (InsertRange pos l) => m = length xs + length l /\ elsewhere RB s m /\ pos <= length xs
  | Seq (Resize n) | Seq (ResizeVal n _) | Reserve n => m = n /\ vcap s < n
  | _ => False
  end.

(** The calls which insert before the end and have the room for it, with the number of
    elements which move up. *)
Definition shifts_up (RB : nat) (s : @vec V) (xs : list V) (o : @smallop V) (m : nat) : Prop :=
  match o with
  | Seq (Insert pos _) =>
      ~ elsewhere RB s (length xs + 1) /\ pos <= length xs /\ m = length xs - pos
  | Seq (InsertN pos n _) =>
      0 < n /\ ~ elsewhere RB s (length xs + n) /\ pos <= length xs /\ m = length xs - pos
  | Seq (InsertRange pos l) =>
      l <> [] /\ ~ elsewhere RB s (length xs + length l) /\ pos <= length xs /\
      m = length xs - pos
  | _ => False
  end.

(** What a call erases: the position and the number of elements. *)
Definition erases (xs : list V) (o : @smallop V) (pos num : nat) : Prop :=
  match o with
  | Seq PopBack => xs <> [] /\ pos = length xs - 1 /\ num = 1
  | Seq (Erase p) => p < length xs /\ pos = p /\ num = 1
  | Seq (EraseRange first last) =>
      first < last /\ last <= length xs /\ pos = first /\ num = last - first
  | _ => False
  end.

(** Does the rest stay in its buffer? *)
Definition stays (RB : nat) (s : @vec V) (n : nat) : Prop := vb s = 0 \/ RB <= n.

(** The calls which put the elements in a buffer of the right size. *)
Definition fits_tight (SC : nat) (s : @vec V) (xs : list V) (o : @smallop V) : Prop :=
  (o = ShrinkToFit \/ (o = RevertToStatic /\ length xs <= SC)) /\
  vb s <> 0 /\ length xs <> vcap s.

(** How many elements a call moves, if it moves any. *)
Definition moves (SC RB : nat) (s : @vec V) (xs : list V) (o : @smallop V) (m : nat) : Prop :=
  (exists n, relocates RB s xs o n /\ m = length xs) \/
  shifts_up RB s xs o m \/
  (exists pos num, erases xs o pos num /\ num < length xs /\
     ((stays RB s (length xs - num) /\ m = length xs - (pos + num)) \/
      (~ stays RB s (length xs - num) /\ m = length xs - num))) \/
  (fits_tight SC s xs o /\ m = length xs).

(** The calls which move no element. *)
Definition moves_nothing (RB : nat) (s : @vec V) (xs : list V) (o : @smallop V) : Prop :=
  match o with
  | Seq (PushBack _) => ~ elsewhere RB s (length xs + 1)
  | Seq PopBack => xs <> [] /\ stays RB s (length xs - 1)
  | Seq (Insert pos _) => pos = length xs /\ ~ elsewhere RB s (length xs + 1)
  | Seq Clear | Seq (AssignN _ _) | Seq (AssignRange _) => True
  | Seq (Resize n) | Seq (ResizeVal n _) | Reserve n => n <= vcap s
  | ShrinkToFit => vb s = 0 \/ length xs = vcap s
  | _ => False
  end.
End Spec.
