(** What references and iterators are when there are several bitsets: a reference is a bit, which goes where its
    bitset is moved to; an iterator is a position in one and the same bitset object. *)
From Coq Require Import List Arith NArith ZArith Bool.
From Verif Require Import Base VecCommon BitsetModel BitsetSpec BitsetRefModel BitsetMoveModel.
Import ListNotations.
Open Scope nat_scope.

(** Each bitset: its bits, and the number of words for which there is room for sure. The references: which
    bitset and which bit (None: no longer to be used). The iterators: which bitset and which position. *)
Record gview := Gview {
  gsets : list (list bool * nat);
  gvrefs : list (option (nat * nat));
  gvits : list (nat * nat)
}.

Section Spec.
Variable W : nat.

Definition bits_at (v : gview) (i : nat) : list bool := fst (nth i (gsets v) ([], 0)).
Definition room_at (v : gview) (i : nat) : nat := snd (nth i (gsets v) ([], 0)).

(** References which go elsewhere. *)
Definition send (f : nat -> option nat) (rs : list (option (nat * nat))) : list (option (nat * nat)) :=
  map (fun o => match o with
                | Some (a, p) => match f a with Some b => Some (b, p) | None => None end
                | None => None
                end) rs.
Definition lost (i : nat) (a : nat) : option nat := if a =? i then None else Some a.
Definition moved_to (i j : nat) (a : nat) : option nat :=
  if a =? i then None else if a =? j then Some i else Some a.
Definition exchanged (i j : nat) (a : nat) : option nat :=
  if a =? i then Some j else if a =? j then Some i else Some a.

(** Bitset [i] has the bits [l'] from now on: within its room, or not. *)
Definition gbecomes (v : gview) (i : nat) (l' : list bool) : gview :=
  if words_for W (length l') <=? room_at v i
  then Gview (upd (gsets v) i (l', room_at v i)) (gvrefs v) (gvits v)
  else Gview (upd (gsets v) i (l', words_for W (length l'))) (send (lost i) (gvrefs v)) (gvits v).
Definition gassigned (v : gview) (i : nat) (l' : list bool) : gview :=
  Gview (upd (gsets v) i (l', Nat.max (room_at v i) (words_for W (length l')))) (send (lost i) (gvrefs v)) (gvits v).
Definition gwrite (v : gview) (i p : nat) (b : bool) : gview :=
  Gview (upd (gsets v) i (upd (bits_at v i) p b, room_at v i)) (gvrefs v) (gvits v).
Definition gadd (v : gview) (i p : nat) : gview := Gview (gsets v) (gvrefs v ++ [Some (i, p)]) (gvits v).

Definition where_ (v : gview) (k : nat) : nat * nat :=
  match nth_error (gvrefs v) k with Some (Some x) => x | _ => (0, 0) end.
Definition it_at (v : gview) (k : nat) : nat * nat := nth k (gvits v) (0, 0).
Definition bit_at (v : gview) (x : nat * nat) : bool := nth (snd x) (bits_at v (fst x)) false.

Definition gstep (v : gview) (o : gop) : gview * rans :=
  match o with
  | GCall i (BAssign ws) _ => let '(l', a) := bstep W (bits_at v i) (BAssign ws) in (gassigned v i l', RaBits a)
  | GCall i o _ => let '(l', a) := bstep W (bits_at v i) o in (gbecomes v i l', RaBits a)
  | GReserve i n _ =>
      (if words_for W n <=? room_at v i then v
       else Gview (upd (gsets v) i (bits_at v i, words_for W n)) (send (lost i) (gvrefs v)) (gvits v), RaNone)
  | GAppend i j _ => (gbecomes v i (bits_at v i ++ bits_at v j), RaNone)
  | GCopy i j _ => (gassigned v i (bits_at v j), RaNone)
  | GMove i j =>
      (Gview (upd (upd (gsets v) i (bits_at v j, room_at v j)) j ([], 0)) (send (moved_to i j) (gvrefs v)) (gvits v), RaNone)
  | GSwap i j =>
      (Gview (upd (upd (gsets v) i (bits_at v j, room_at v j)) j (bits_at v i, room_at v i))
             (send (exchanged i j) (gvrefs v)) (gvits v), RaNone)
  | GRef i p => (gadd v i p, RaNone)
  | GTest k => (v, RaBool (bit_at v (where_ v k)))
  | GSet k => (gwrite v (fst (where_ v k)) (snd (where_ v k)) true, RaNone)
  | GReset k => (gwrite v (fst (where_ v k)) (snd (where_ v k)) false, RaNone)
  | GFlip k => (gwrite v (fst (where_ v k)) (snd (where_ v k)) (negb (bit_at v (where_ v k))), RaNone)
  | GSetTo k b => (gwrite v (fst (where_ v k)) (snd (where_ v k)) b, RaNone)
  | GBegin i => (Gview (gsets v) (gvrefs v) (gvits v ++ [(i, 0)]), RaNone)
  | GAdvance k z =>
      (Gview (gsets v) (gvrefs v) (gvits v ++ [(fst (it_at v k), Z.to_nat (Z.of_nat (snd (it_at v k)) + z))]), RaNone)
  | GRead k => (v, RaBool (bit_at v (it_at v k)))
  | GItRef k => (gadd v (fst (it_at v k)) (snd (it_at v k)), RaNone)
  end.

(** What may be called: bitsets there are, two different ones where there are two; references which were not
    lost, to bits which are there; iterators within their bitset, as it is now. *)
Definition gusable (v : gview) (k : nat) : Prop :=
  exists i p, nth_error (gvrefs v) k = Some (Some (i, p)) /\ p < length (bits_at v i).
Definition gallowed (v : gview) (o : gop) : Prop :=
  let n := length (gsets v) in
  match o with
  | GCall i o _ => i < n /\ bok W (bits_at v i) o
  | GReserve i m _ => i < n /\ size_ok W m
  | GAppend i j _ => i < n /\ j < n /\ i <> j /\ size_ok W (length (bits_at v i) + length (bits_at v j))
  | GCopy i j _ | GMove i j | GSwap i j => i < n /\ j < n /\ i <> j
  | GRef i p => i < n /\ p < length (bits_at v i)
  | GTest k | GSet k | GReset k | GFlip k | GSetTo k _ => gusable v k
  | GBegin i => i < n
  | GAdvance k z => k < length (gvits v) /\
      (0 <= Z.of_nat (snd (it_at v k)) + z <= Z.of_nat (length (bits_at v (fst (it_at v k)))))%Z /\
      (Z.of_nat (snd (it_at v k)) + z < Z.of_N (two64 / 2))%Z
  | GRead k | GItRef k => k < length (gvits v) /\ snd (it_at v k) < length (bits_at v (fst (it_at v k)))
  end.

Fixpoint ghistory (v : gview) (os : list gop) : gview * list rans :=
  match os with
  | [] => (v, [])
  | o :: os' => let '(v', a) := gstep v o in let '(v'', rs) := ghistory v' os' in (v'', a :: rs)
  end.
Fixpoint gallowed_along (v : gview) (os : list gop) : Prop :=
  match os with
  | [] => True
  | o :: os' => gallowed v o /\ gallowed_along (fst (gstep v o)) os'
  end.

(** A bitset with its bits, and room at least for them. *)
Definition is_set (s : rbs) (x : list bool * nat) : Prop :=
  holds_bits W (core s) (fst x) /\ snd x <= capw s /\ length (buf (core s)) <= snd x.
(** No two bitsets have the same block, and none has the next. *)
Definition blocks_apart (l : list rbs) (n : nat) : Prop :=
  (forall i j a b, nth_error l i = Some a -> nth_error l j = Some b -> block a = block b -> i = j) /\
  (forall i a, nth_error l i = Some a -> block a < n).
Definition gshows (w : world) (v : gview) : Prop :=
  Forall2 is_set (sets w) (gsets v) /\
  blocks_apart (sets w) (nextb w) /\
  Forall2 (fun r o => forall i p, o = Some (i, p) ->
             exists s, nth_error (sets w) i = Some s /\ r = Bitref (block s) (p / W) (word_mask W p))
          (grefs w) (gvrefs v) /\
  gits w = map (fun x => (fst x, N.of_nat (snd x))) (gvits v) /\
  Forall (fun x => fst x < length (gsets v) /\ (N.of_nat (snd x) < two64 / 2)%N) (gvits v).
End Spec.
