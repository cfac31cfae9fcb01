(** itlib::small_vector as the container of flat_map and flat_set (flat_map.hpp 136-141,
    flat_set.hpp 105-110: the container is a template argument).  Allocation can fail, as in
    SmallVectorModel. *)
From Coq Require Import List Arith NArith ZArith Bool.
From Verif Require Import Base SeqSpec VecCommon SmallVectorModel FlatModel.
Import ListNotations.

Section Container.
Variable V : Type.
Variable moved : V -> V.
Variable dflt : V.
Variable SC RB : nat.
Variable maxn : N.

(** Assignment to an element through an iterator: small_vector.hpp 371-411 (begin, end). *)
Definition small_put (i : nat) (v : V) : M (@vec V) unit := fun s =>
  match slot_at (vb s, i) (blocks s) with
  | Some (Live _) => Ok tt (with_blocks (put_slot (vb s, i) (Live v) (blocks s)) s)
  | _ => UB
  end.

(** flat_map and flat_set call the member swap of their container (flat_map.hpp 374-378,
    flat_set.hpp 306-310); small_vector has none, so their swap does not compile over it.
    std::swap of two maps is done by moves. *)
Definition small_cont : container V (@vec V) := {|
  c_size s := snd (ve s);
  c_get i := SmallVectorModel.at_ i;
  c_put := small_put;
  c_call o := SmallVectorModel.call moved dflt SC RB maxn (Seq o);
  c_copy_assign := SmallVectorModel.copy_assign SC RB maxn;
  c_move_assign := SmallVectorModel.move_assign moved SC;
  c_swap := ub;
  c_equal := SmallVectorModel.equal
|}.
End Container.
