(** What C115 says, without the functions of the model: which calls step outside of their arrays, given only
    how many elements there are, how much room, and whether the room is on the heap. *)
From Coq Require Import List Arith ZArith Bool.
From Verif Require Import Base SeqSpec PtrModel.
From Verif Require PodVectorModel.
Import ListNotations.

(** How many elements there are after the call, when it is not rejected *)
Definition new_size (n : nat) (o : vop unit) : nat :=
  match o with
  | PushBack _ | Insert _ _ => S n
  | PopBack | Erase _ => n - 1
  | InsertN _ k _ => n + k
  | InsertRange _ l => n + length l
  | EraseRange first last => n - (last - first)
  | Resize k | ResizeVal k _ | AssignN k _ => k
  | AssignRange l => length l
  | Clear => 0
  end.
(** The iterators which are passed are iterators of the vector, in order. *)
Definition vin (n : nat) (o : vop unit) : Prop :=
  match o with
  | Insert pos _ | InsertN pos _ _ | InsertRange pos _ => pos <= n
  | Erase pos => pos < n
  | EraseRange first last => first <= last <= n
  | _ => True
  end.
(** Where the call inserts how many elements; from where it erases how many *)
Definition insertion (o : vop unit) : option (nat * nat) :=
  match o with
  | Insert pos _ => Some (pos, 1)
  | InsertN pos k _ => Some (pos, k)
  | InsertRange pos l => Some (pos, length l)
  | _ => None
  end.
Definition erasure (n : nat) (o : vop unit) : option nat :=
  match o with
  | PopBack | Erase _ => Some 1
  | EraseRange first last => Some (last - first)
  | _ => None
  end.

(** ** static_vector: pop_back of nothing, and insertions at begin() which find room *)
Definition static_bad (C n : nat) (o : vop unit) : bool :=
  match o with
  | PopBack => n =? 0
  | _ => match insertion o with
         | Some (pos, k) => (pos =? 0) && (0 <? k) && (n + k <=? C)
         | None => false
         end
  end.
(** An assignment which is too long has destroyed the old elements when it notices. *)
Definition static_next (C n : nat) (o : vop unit) : nat :=
  if new_size n o <=? C then new_size n o
  else match o with AssignN _ _ | AssignRange _ => 0 | _ => n end.
Fixpoint static_hist (C n : nat) (os : list (vop unit)) : option nat :=
  match os with
  | [] => Some n
  | o :: os' => if static_bad C n o then None else static_hist C (static_next C n o) os'
  end.
Fixpoint static_in (C n : nat) (os : list (vop unit)) : Prop :=
  match os with
  | [] => True
  | o :: os' => vin n o /\ static_in C (static_next C n o) os'
  end.

(** ** small_vector *)

(** m_begin is the beginning of an array which is there and has the capacity's size, m_end points into it or
    one past it; so is the static buffer. *)
Definition wf (SC : nat) (s : vec) : Prop :=
  exists b n,
    vb s = (b, 0%Z) /\ ve s = (b, Z.of_nat n) /\ n <= vcap s /\
    nth_error (vmem s) b = Some (Some (vcap s)) /\ nth_error (vmem s) 0 = Some (Some SC) /\
    (b <> 0 -> 0 < vcap s).
Definition vsize (s : vec) : nat := Z.to_nat (snd (ve s) - snd (vb s)).
Definition on_heap (s : vec) : bool := negb (fst (vb s) =? 0).

(** The d elements which are wanted stay in the buffer which is there. *)
Definition kept (RB : nat) (s : vec) (d : nat) : bool :=
  (d <=? vcap s) && (negb (on_heap s) || (RB <=? d)).

(** Insertions at begin() for which the buffer is kept - push_back into an empty vector among them -
    and pop_back of nothing: outside. Erasures which leave some elements, but so few that they go back from
    the heap to the static buffer: dangling. *)
Definition small_bad (RB : nat) (s : vec) (o : vop unit) : option fault :=
  match o with
  | PopBack =>
      if vsize s =? 0 then Some Outside
      else if (1 <? vsize s) && negb (kept RB s (vsize s - 1)) then Some Dangling else None
  | PushBack _ => if (vsize s =? 0) && kept RB s 1 then Some Outside else None
  | _ =>
      match insertion o, erasure (vsize s) o with
      | Some (pos, k), _ => if (pos =? 0) && kept RB s (vsize s + k) then Some Outside else None
      | _, Some k => if (k <? vsize s) && negb (kept RB s (vsize s - k)) then Some Dangling else None
      | None, None => None
      end
  end.
Definition small_bad_op (RB : nat) (s : vec) (o : smallop) : option fault :=
  match o with Seq o => small_bad RB s o | _ => None end.
Definition small_in (s : vec) (o : smallop) : Prop :=
  match o with Seq o => vin (vsize s) o | _ => True end.
Definition small_size (s : vec) (o : smallop) : nat :=
  match o with Seq o => new_size (vsize s) o | _ => vsize s end.
(** How much room the call asks for *)
Definition wanted (s : vec) (o : smallop) : nat :=
  match o with Seq o => new_size (vsize s) o | Reserve n => n | _ => vsize s end.

(** ** pod_vector: m_begin pointed into a block, and points into another one now *)
Definition moved (b : nat) (s s' : PodVectorModel.pst) : Prop :=
  (exists o, PodVectorModel.pb (snd s) = Some (b, o)) /\
  (exists b' o', PodVectorModel.pb (snd s') = Some (b', o') /\ b' <> b).
Definition given_back (b : nat) (s : PodVectorModel.pst) : Prop :=
  exists a, nth_error (PodVectorModel.blks (fst s)) b = Some (PodVectorModel.MFreed a).

(** ** stride_span: every nstride-th element of an array from noffset on; a field of every structure *)
Definition array_offsets (sz noffset nstride k : nat) : list Z :=
  map (fun i => Z.of_nat ((noffset + i * nstride) * sz)) (seq 0 k).
Definition field_offsets (ssz field k : nat) : list Z :=
  map (fun i => Z.of_nat (i * ssz + field)) (seq 0 k).

(** ** What a good pointer is: one into an array which is there, or one past its end *)
Definition valid (m : mem) (p : ptr) : Prop :=
  exists size, nth_error m (fst p) = Some (Some size) /\ (0 <= snd p <= Z.of_nat size)%Z.
Definition past_end (m : mem) (p : ptr) : Prop :=
  exists size, nth_error m (fst p) = Some (Some size) /\ snd p = Z.of_nat size.
