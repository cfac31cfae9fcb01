(** Copying bits within one bitset. *)
From Coq Require Import List Arith.

(** The bits [from, to) may be copied from [src] on: as for std::copy, the first of the destination is
    not one of the source's (or is its first). *)
Definition copyable (from to src : nat) : Prop := from <= src \/ src + (to - from) <= from.
