(** What C118 says: what the elements of a vector may see of it, and during which calls they do. *)
From Coq Require Import List Arith Bool.
From Verif Require Import Base SeqSpec PtrSpec VecViewModel.
From Verif Require PtrModel.
Import ListNotations.

(** From begin() to end() is a range, and all elements in it are alive, but for the one whose constructor or
    destructor runs. *)
Definition good (v : view) : Prop :=
  fst (vend v) = vbegin v /\
  forall j, j < snd (vend v) -> who v = (vbegin v, j) \/ lives v (vbegin v) j = true.

(** Between calls: n elements are alive, all in the buffer, which is as large as the capacity. *)
Definition whole (s : st) (n : nat) : Prop :=
  ve s = (vb s, n) /\ n <= vcap s /\ nth_error (room s) (vb s) = Some (Some (vcap s)) /\
  (forall a i, live s a i = (a =? vb s) && (i <? n)).
Definition static_whole (C : nat) (s : st) (n : nat) : Prop :=
  whole s n /\ room s = [Some C] /\ vb s = 0 /\ vcap s = C.
Definition small_whole (SC : nat) (s : st) (n : nat) : Prop :=
  whole s n /\ nth_error (room s) 0 = Some (Some SC) /\ (vb s = 0 -> vcap s = SC) /\ (vb s <> 0 -> 0 < vcap s).

(** Iterators of the vector, and no empty insertions or erasures (C3, C12). *)
Definition proper (n : nat) (o : vop unit) : Prop :=
  vin n o /\
  match o with
  | PopBack => 0 < n
  | InsertN _ k _ => 0 < k
  | InsertRange _ l => 0 < length l
  | EraseRange first last => first < last
  | _ => True
  end.

(** static_vector: insertions and erasures of one element, and whatever works at the end only; the others if
    there is at most one element to be destroyed, or if they are rejected. *)
Definition static_quiet (C n : nat) (o : vop unit) : bool :=
  match o with
  | InsertN _ k _ => (k =? 1) || (C <? n + k)
  | InsertRange _ l => (length l =? 1) || (C <? n + length l)
  | EraseRange first last => last - first =? 1
  | Clear | AssignN _ _ | AssignRange _ => n <=? 1
  | _ => true
  end.

(** small_vector: the d elements which are wanted stay in the buffer which is there. *)
Definition stays (RB : nat) (s : st) (d : nat) : bool := (d <=? vcap s) && ((vb s =? 0) || (RB <=? d)).
Definition adding (RB : nat) (s : st) (n k : nat) : bool := (k =? 1) && (stays RB s (n + k) || (n <=? 1)).
Definition taking (RB : nat) (s : st) (n k : nat) : bool := if n =? k then n =? 1 else (k =? 1) && stays RB s (n - k).
Definition assigning (RB : nat) (s : st) (n k : nat) : bool := (n <=? 1) && ((k =? 0) || stays RB s k).
Definition reserving (s : st) (n d : nat) : bool := (d <=? vcap s) || (n <=? 1).
Definition small_quiet (RB : nat) (s : st) (n : nat) (o : PtrModel.smallop) : bool :=
  match o with
  | PtrModel.Seq o =>
      match o with
      | PushBack _ | Insert _ _ => adding RB s n 1
      | InsertN _ k _ => adding RB s n k
      | InsertRange _ l => adding RB s n (length l)
      | PopBack | Erase _ => taking RB s n 1
      | EraseRange first last => taking RB s n (last - first)
      | Resize k | ResizeVal k _ => reserving s n k
      | Clear => n <=? 1
      | AssignN k _ => assigning RB s n k
      | AssignRange l => assigning RB s n (length l)
      end
  | PtrModel.Reserve d => reserving s n d
  | PtrModel.ShrinkToFit | PtrModel.RevertToStatic => true
  end.
Definition small_next (n : nat) (o : PtrModel.smallop) : nat :=
  match o with PtrModel.Seq o => new_size n o | _ => n end.
Definition small_proper (n : nat) (o : PtrModel.smallop) : Prop :=
  match o with PtrModel.Seq o => proper n o | _ => True end.

(** Sequences of calls on a vector with n elements *)
Fixpoint all_proper (C n : nat) (os : list (vop unit)) : Prop :=
  match os with [] => True | o :: os' => proper n o /\ all_proper C (static_next C n o) os' end.
Fixpoint all_quiet (C n : nat) (os : list (vop unit)) : bool :=
  match os with [] => true | o :: os' => static_quiet C n o && all_quiet C (static_next C n o) os' end.
Definition last_size (C n : nat) (os : list (vop unit)) : nat := fold_left (static_next C) os n.
Fixpoint all_small_proper (n : nat) (os : list PtrModel.smallop) : Prop :=
  match os with [] => True | o :: os' => small_proper n o /\ all_small_proper (small_next n o) os' end.
Definition last_small_size (n : nat) (os : list PtrModel.smallop) : nat := fold_left small_next os n.
(** Every call is a quiet one in the state in which it is made. *)
Fixpoint small_all_quiet (SC RB : nat) (s : st) (n : nat) (os : list PtrModel.smallop) : Prop :=
  match os with
  | [] => True
  | o :: os' =>
      small_quiet RB s n o = true /\
      forall s', call SC RB o s = Ok tt s' -> small_all_quiet SC RB s' (small_next n o) os'
  end.
