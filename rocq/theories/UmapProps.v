(** C70, C71: transparent_umap. *)
From Coq Require Import List Arith Bool Lia.
From Verif Require Import Base UmapModel UmapSpec UmapProofs.
Import ListNotations.

(** C70: with transparent Hash and KeyEqual, calls with an argument of a type which is not itself
    "transparent" (say a string_view for a map of strings) never look up by the argument. The
    standard's always do. *)
Theorem C70_ordinary_keys_refuted m X lvalue :
  hash_tr m = true -> eq_tr m = true -> is_key X = false -> key_tr X = false ->
  makes_key X = true -> to_iter X = false -> to_citer X = false ->
  (at_of m X <> Hetero /\ subscript_of m X lvalue <> Hetero /\ try_emplace_of m X lvalue <> Hetero) /\
  std_at m X = Hetero /\ std_emplace m X = Hetero.
Proof.
  destruct m, X, lvalue; cbn; intros; subst; cbn; destruct to_key; cbn; repeat split; discriminate.
Qed.
(** An lvalue never selects them in operator[] and try_emplace, whatever the types. *)
Theorem C70_lvalues_refuted m X :
  subscript_of m X true <> Hetero /\ try_emplace_of m X true <> Hetero.
Proof. destruct m, X; cbn. destruct is_key, to_key; split; discriminate. Qed.
(** try_emplace with a hint does not compile where it selects the new overload. *)
Theorem C70_hint_refuted m X lvalue : try_emplace_hint_of m X lvalue <> Hetero /\
  (key_tr X = true -> is_key X = false -> try_emplace_hint_of m X false = IllFormed).
Proof.
  destruct m, X; cbn. destruct is_key, key_tr, to_key, lvalue; cbn; split; auto; discriminate.
Qed.
(** Type Key itself always selects the overloads of std::unordered_map; and rvalues of a type which
    has is_transparent and which Key converts to select as in the standard, whether Hash and
    KeyEqual are transparent or not. *)
Theorem C70_selection_partial m X lvalue :
  (is_key X = true ->
     at_of m X = std_at m X /\ subscript_of m X lvalue = std_emplace m X /\
     try_emplace_of m X lvalue = std_emplace m X) /\
  (key_tr X = true -> (to_key X = true -> makes_key X = true) ->
     at_of m X = std_at m X /\
     (from_key X = true -> subscript_of m X false = std_emplace m X /\
                           try_emplace_of m X false = std_emplace m X)).
Proof.
  destruct m as [a b], X as [c d e f g h i]. unfold at_of, subscript_of, try_emplace_of, std_at,
    std_emplace, select, enable_if_tr, enable_if_tr_c, is_transparent, std_overload, std_find, wants.
  cbn. destruct lvalue, a, b, c, d, e, f, g, h, i; cbn; intuition discriminate.
Qed.
Print Assumptions C70_ordinary_keys_refuted.
Print Assumptions C70_lvalues_refuted.
Print Assumptions C70_hint_refuted.
Print Assumptions C70_selection_partial.
Definition ex_M := mkM true true.
Definition ex_string_view := mkK false false true false true false false.   (* Key is std::string *)
Definition ex_tagged := mkK false true true false true false false.
Example C70_ex :
  hash_tr ex_M = true /\ eq_tr ex_M = true /\ is_key ex_string_view = false /\
  key_tr ex_string_view = false /\ makes_key ex_string_view = true /\
  at_of ex_M ex_string_view = IllFormed /\
  key_tr ex_tagged = true /\ from_key ex_tagged = true /\ subscript_of ex_M ex_tagged false = Hetero.
Proof. repeat split. Qed.

Section Props.
Context {K T H : Type}.
Variable keq : K -> K -> bool.
Variable heq : H -> K -> bool.
Variable make : H -> K.
Variable dflt : T.

(** C71: where they are selected, and a key of another type equals the Keys which the Key made of
    it equals, every history of calls is one of a map: at() throws for a key without a value,
    operator[] and try_emplace() insert a value if there is none and change nothing else; where a
    value is there, or an exception comes, nothing changes. *)
Theorem C71_history os xs (f : fmap) :
  (forall k k', keq k k' = true <-> k = k') -> (forall h k, heq h k = keq (make h) k) ->
  ssteps make dflt (fun _ => None) os xs f ->
  exists m, calls keq heq make dflt os [] = Ok xs m /\ NoDup (List.map fst m) /\
            forall k t, f k = Some t <-> In (k, t) m.
Proof.
  intros Q1 Q2 Hs.
  destruct (calls_sim keq heq make dflt Q1 Q2 [] (fun _ => None) os xs f rep_init Hs) as (m & E & ND & R).
  exists m. auto.
Qed.
End Props.
Print Assumptions C71_history.
(** Keys are numbers, other keys their halves. *)
Example C71_ex : exists f,
  ssteps (fun h => 2 * h) 9 (fun _ => None)
    [ At 1; Sub 1 false false; SubSet 2 5 false false; TryEmplace 2 7 true true;
      TryEmplace 3 8 false true; TryEmplace 3 8 false false; At 3 ]
    [ Thrown OutOfRange; Val 9; Set_; Done false 5; Thrown ElemThrow; Done true 8; Val 8 ] f /\
  (forall h k, Nat.eqb (h + h) k = Nat.eqb (2 * h) k).
Proof.
  eexists. split.
  - eapply ss_cons; [apply s_at_none; reflexivity|].
    eapply ss_cons; [apply (s_sub_new _ _ _ _ (fun k => if k =? 2 then Some 9 else None)); [reflexivity|]|].
    { split; [reflexivity|]. intros k Hk. cbn in *. now rewrite (proj2 (Nat.eqb_neq k 2)). }
    eapply ss_cons; [apply (s_set_new _ _ _ _ _ (fun k => if k =? 4 then Some 5 else if k =? 2 then Some 9 else None));
                     [reflexivity|]|].
    { split; [reflexivity|]. intros k Hk. cbn in Hk. now rewrite (proj2 (Nat.eqb_neq k 4)). }
    eapply ss_cons; [apply s_try; reflexivity|].
    eapply ss_cons; [apply s_try_throws; [reflexivity|auto]|].
    eapply ss_cons; [apply (s_try_new _ _ _ _ _ (fun k => if k =? 6 then Some 8 else
                              if k =? 4 then Some 5 else if k =? 2 then Some 9 else None)); [reflexivity|]|].
    { split; [reflexivity|]. intros k Hk. cbn in Hk. now rewrite (proj2 (Nat.eqb_neq k 6)). }
    eapply ss_cons; [apply s_at; reflexivity|]. apply ss_nil.
  - intros h k. f_equal. lia.
Qed.
