(** Where a small_vector keeps its elements, and its capacity, after each call: what the
    documentation at the head of small_vector.hpp (59-107) and choose_data (956-998) promise,
    written on sizes only. *)
From Coq Require Import List Arith NArith Bool.
From Verif Require Import Base SeqSpec VecCommon SmallVectorModel SmallVectorSpec.
Import ListNotations.

(** [None]: the static buffer; [Some c]: dynamic memory for [c] elements. *)
Definition place : Type := option nat.
(** What is_static() and capacity() say. *)
Definition place_of {V} (s : @vec V) : place := if is_static s then None else Some (capacity s).

Section Spec.
Variable SC RB : nat.

(** The buffer for [d] elements. *)
Definition suits (p : place) (d : nat) (p' : place) : Prop :=
  match p with
  | None => p' = if d <=? SC then None else Some d
  | Some c =>
      if d <=? c then p' = if d <? RB then None else p
      else exists c', grows (N.of_nat c) (N.of_nat d) (N.of_nat c') /\ p' = Some c'
  end.
Definition room_of (p : place) : nat := match p with None => SC | Some c => c end.
Definition enlarged (p : place) (d : nat) (p' : place) : Prop :=
  if d <=? room_of p then p' = p else suits p d p'.
(** The buffer after all [n] elements but [k] are gone. *)
Definition emptied (p : place) : place := if RB =? 0 then p else None.
Definition lessened (p : place) (k : nat) (p' : place) : Prop :=
  if k =? 0 then p' = emptied p else suits p k p'.
Definition shrunk (p : place) (n : nat) : place :=
  match p with
  | None => None
  | Some c => if n =? c then p else if n <? SC then None else Some n
  end.

(** [n] elements in [p] before the call, [p'] after it. *)
Definition place_step {V} (p : place) (n : nat) (o : @smallop V) (p' : place) : Prop :=
  match o with
  | Seq (PushBack _) => suits p (n + 1) p'
  | Seq PopBack => if n =? 0 then p' = p else lessened p (n - 1) p'
  | Seq (Insert pos _) => if pos <=? n then suits p (n + 1) p' else p' = p
  | Seq (InsertN pos k _) => if pos <=? n then suits p (n + k) p' else p' = p
  | Seq (InsertRange pos l) => if pos <=? n then suits p (n + length l) p' else p' = p
  | Seq (Erase pos) => if pos <? n then lessened p (n - 1) p' else p' = p
  | Seq (EraseRange first last) =>
      if (first <=? last) && (last <=? n) then lessened p (n - (last - first)) p' else p' = p
  | Seq (Resize k) | Seq (ResizeVal k _) => enlarged p k p'
  | Seq Clear => p' = emptied p
  | Seq (AssignN k _) => suits p k p'
  | Seq (AssignRange l) => suits p (length l) p'
  | Reserve k => enlarged p k p'
  | ShrinkToFit => p' = shrunk p n
  | RevertToStatic => p' = if SC <? n then p else shrunk p n
  end.

(** The same for a family of vectors with the contents [cs]. *)
Definition places_step {V} (cs : list (list V)) (ps : list place) (o : @smallsys V)
  (ps' : list place) : Prop :=
  match o with
  | On i op => exists xs p p', nth_error cs i = Some xs /\ nth_error ps i = Some p /\
                 place_step p (length xs) op p' /\ ps' = upd ps i p'
  | CopyAssign i j =>
      if i =? j then ps' = ps
      else exists ys p p', nth_error cs j = Some ys /\ nth_error ps i = Some p /\
             suits p (length ys) p' /\ ps' = upd ps i p'
  | MoveAssign i j =>
      if i =? j then ps' = ps
      else exists p, nth_error ps j = Some p /\ ps' = upd (upd ps i p) j None
  end.
Fixpoint places_run {V} (dflt : V) (cs : list (list V)) (ps : list place) (os : list (@smallsys V))
  (ps' : list place) : Prop :=
  match os with
  | [] => ps' = ps
  | o :: os' => exists ps1, places_step cs ps o ps1 /\
                  places_run dflt (fst (small_sys_step dflt cs o)) ps1 os' ps'
  end.
End Spec.
