(** Specification vocabulary for dynamic_bitset over the library's own vectors. *)
From Coq Require Import List Arith NArith.
From Verif Require Import Base VecCommon BitsetModel BitsetSpec BitsetBufModel.
Import ListNotations.
Open Scope nat_scope.

(** A family of buffers does what a family of std::vectors does, as long as none needs more
    than there is [room] for. [rep] tells which words are in which buffer. *)
Record buffers_ok {F} (W : nat) (B : buffers F) (room : nat -> Prop)
  (rep : F -> list (list N) -> Prop) : Prop := {
  ok_words : forall f ls l, rep f ls -> In l ls -> words_ok W l;
  ok_size : forall f ls i l, rep f ls -> nth_error ls i = Some l ->
    f_size B i f = Ok (length l) f;
  ok_get : forall f ls i l k w, rep f ls -> nth_error ls i = Some l -> nth_error l k = Some w ->
    f_get B i k f = Ok w f;
  ok_put : forall f ls i l k w, rep f ls -> nth_error ls i = Some l -> k < length l ->
    (w < 2 ^ N.of_nat W)%N ->
    exists f', f_put B i k w f = Ok tt f' /\ rep f' (upd ls i (upd l k w));
  ok_resize : forall f ls i l n, rep f ls -> nth_error ls i = Some l -> room n ->
    exists f', f_resize B i n f = Ok tt f' /\
      rep f' (upd ls i (firstn n l ++ repeat 0%N (n - length l)));
  ok_append : forall f ls i j l k, rep f ls -> i <> j -> nth_error ls i = Some l ->
    nth_error ls j = Some k -> k <> [] -> room (length l + length k) ->
    exists f', f_append B i j f = Ok tt f' /\ rep f' (upd ls i (l ++ k));
  ok_make : forall f ls i n w, rep f ls -> i < length ls -> room n -> (w < 2 ^ N.of_nat W)%N ->
    exists f', f_make B i n w f = Ok tt f' /\ rep f' (upd ls i (repeat w n));
  ok_assign : forall f ls i ws, rep f ls -> i < length ls -> room (length ws) -> words_ok W ws ->
    exists f', f_assign B i ws f = Ok tt f' /\ rep f' (upd ls i ws);
  ok_copy : forall f ls i j k, rep f ls -> i <> j -> i < length ls -> nth_error ls j = Some k ->
    room (length k) ->
    exists f', f_copy B i j f = Ok tt f' /\ rep f' (upd ls i k);
  ok_move : forall f ls i j k, rep f ls -> i <> j -> i < length ls -> nth_error ls j = Some k ->
    exists f', f_move B i j f = Ok tt f' /\ rep f' (upd (upd ls i k) j [])
}.

(** There is room for the words of every bitset after each call of the history. *)
Fixpoint room_along (W : nat) (room : nat -> Prop) (cs : list (list bool)) (os : list bsysop) : Prop :=
  match os with
  | [] => True
  | o :: os' =>
      let cs' := fst (bsys_step W cs o) in
      Forall (fun l => room (words_for W (length l))) cs' /\ room_along W room cs' os'
  end.
