(** Specification of mem_ostreambuf over the vectors of this library: a file and a position in
    it, as in StreamSpec.v. *)
From Coq Require Import List Arith NArith ZArith Bool.
From Verif Require Import Base VecCommon StreamModel StreamSpec.
From Verif Require StaticVectorModel SmallVectorModel SmallVectorSpec PodVectorModel PodVectorSpec.
Import ListNotations.
Open Scope nat_scope.

Section Spec.
Context {C : Type}.
(** Is this something the container can hold? Can it hold so many elements? With what does it
    refuse so many? Is data() null in a default constructed container? Has it a member swap? *)
Variable elem : C -> Prop.
Variable room : nat -> Prop.
Variable full : nat -> option exn.
Variable null0 : bool.
Variable has_swap : bool.

Definition kstep (f : file C) (o : oop C) : file C * oans C :=
  match f with
  | Taken => match o with OClear => (Held [] 0, OaNone) | _ => (Taken, OaNone) end
  | Held l pos =>
      let write str :=
        match full (pos + length str) with
        | Some e => (f, OaThrow e)
        | None => (Held (overwrite l pos str) (pos + length str), OaNone)
        end in
      match o with
      | OPut c => write [c]
      | OWrite str => write str
      | OSeekBeg off => (Held l (Z.to_nat off), OaPos off)
      | OSeekCur off => (Held l (Z.to_nat (Z.of_nat pos + off)), OaPos (Z.of_nat pos + off))
      | OTell => (f, OaPos (Z.of_nat pos))
      | OPeek => (f, OaData (firstn pos l))
      | OClear => (Held [] 0, OaNone)
      | OGet => (if null0 then Held [] 0 else Taken, OaData (firstn pos l))
      end
  end.

(** Seeks stay within the data written, and positions and blocks below 2^31; blocks of no
    characters are written only if memory is sure to be there. *)
Definition kok (f : file C) (o : oop C) : Prop :=
  match f with
  | Taken => o = OClear
  | Held l pos =>
      match o with
      | OPut c => elem c /\ (full (pos + 1) = None -> room (pos + 1))
      | OWrite str =>
          (Z.of_nat (length str) < int_max1)%Z /\ (null0 = true -> str <> []) /\
          Forall elem str /\ (full (pos + length str) = None -> room (pos + length str))
      | OSeekBeg off => (0 <= off <= Z.of_nat (length l) /\ off < int_max1)%Z
      | OSeekCur off =>
          (0 <= Z.of_nat pos + off <= Z.of_nat (length l) /\ Z.of_nat pos + off < int_max1)%Z
      | OGet => has_swap = true
      | OTell | OPeek | OClear => True
      end
  end.
Fixpoint kalong (f : file C) (os : list (oop C)) : Prop :=
  match os with
  | [] => True
  | o :: os' => kok f o /\ kalong (fst (kstep f o)) os'
  end.
Fixpoint kruns (f : file C) (os : list (oop C)) : file C * list (oans C) :=
  match os with
  | [] => (f, [])
  | o :: os' =>
      let '(f', a) := kstep f o in
      let '(f'', rs) := kruns f' os' in (f'', a :: rs)
  end.
End Spec.

Definition anything {C : Type} (c : C) : Prop := True.
Definition never (n : nat) : option exn := None.

(** static_vector: more than Capacity elements are refused. *)
Definition static_full (Capacity n : nat) : option exn :=
  if Capacity <? n then Some OutOfRange else None.
Definition static_released {C : Type} (Capacity : nat) (v : @StaticVectorModel.sv C) : Prop :=
  StaticVectorModel.data v = repeat Raw Capacity.

(** pod_vector: every block is given back. *)
Definition pod_released (st : PodVectorModel.pst) : Prop :=
  forall j, j < length (PodVectorModel.blks (fst st)) ->
    exists a, nth_error (PodVectorModel.blks (fst st)) j = Some (PodVectorModel.MFreed a).
