(** C83: flat_map and flat_set over small_vector. *)
From Coq Require Import List Arith NArith Bool Lia.
From Verif Require Import Base SeqSpec VecCommon SmallVectorModel SmallVectorSpec
  FlatModel FlatSpec FlatProofs FlatProps FlatExnModel FlatExnSpec FlatExnProofs FlatExnProps
  SmallFlatModel SmallFlatSpec SmallFlatProofs.
Import ListNotations.
Local Notation holds := FlatSpec.holds.

(** * What holds *)

(** Any number of maps over small_vectors of any static capacity and any legal threshold for
    going back to the static buffer, and any history of calls without swap for which the
    memory suffices: every call has the answer, and leaves the contents, which the
    (unbounded) finite map specification gives it, wherever the elements lie. *)
Theorem C83_flat_map_partial :
  forall (K T Q C : Type) (lt : C -> K -> K -> bool) (kq : C -> K -> Q -> bool)
    (qk : C -> Q -> K -> bool) (conv : Q -> K) (asq : K -> Q) (dflt : T)
    (moved : K * T -> K * T) (de : K * T) (SC RB : nat) (maxn : N),
  (forall c, strict_weak_order (lt c)) ->
  (forall c k q, kq c k q = lt c k (conv q)) ->
  (forall c k q, qk c q k = lt c (conv q) k) ->
  (forall k, conv (asq k) = k) ->
  0 < SC -> RB <= SC + 1 -> (maxn < two63)%N ->
  let cont := small_cont (K * T) moved de SC RB maxn in
  forall (n : nat) (st : list (flat C (@vec (K * T)))) (cs : list (C * (K -> option (K * T))))
    (os : list (fsysop (mop K T Q))),
  room maxn (n + length os) ->
  Forall2 (holds fst lt (small_rep SC n)) st cs ->
  legal fst lt (mmeans lt conv dflt None) (mallowed lt conv) cs os ->
  no_swap os ->
  exists st' rs cs',
    frun (fsys cont (mcall kq qk cont conv dflt asq)) st os = Some (st', rs) /\
    follows fst lt (mmeans lt conv dflt None) cs os rs cs' /\
    Forall2 (holds fst lt (small_rep SC (n + length os))) st' cs'.
Proof. intros. eapply map_run; eauto. Qed.
Print Assumptions C83_flat_map_partial.

Theorem C83_flat_set_partial :
  forall (K Q C : Type) (lt : C -> K -> K -> bool) (kq : C -> K -> Q -> bool)
    (qk : C -> Q -> K -> bool) (conv : Q -> K) (asq : K -> Q)
    (moved : K -> K) (de : K) (SC RB : nat) (maxn : N),
  (forall c, strict_weak_order (lt c)) ->
  (forall c k q, kq c k q = lt c k (conv q)) ->
  (forall c k q, qk c q k = lt c (conv q) k) ->
  (forall k, conv (asq k) = k) ->
  0 < SC -> RB <= SC + 1 -> (maxn < two63)%N ->
  let cont := small_cont K moved de SC RB maxn in
  forall (n : nat) (st : list (flat C (@vec K))) (cs : list (C * (K -> option K)))
    (os : list (fsysop (fop K Q))),
  room maxn (n + length os) ->
  Forall2 (holds (fun k => k) lt (small_rep SC n)) st cs ->
  legal (fun k => k) lt (fmeans (T := unit) (fun k => k) lt conv None)
    (fallowed (fun k => k) lt conv) cs os ->
  no_swap os ->
  exists st' rs cs',
    frun (fsys cont (fcall (fun k => k) kq qk cont asq)) st os = Some (st', rs) /\
    follows (fun k => k) lt (fmeans (T := unit) (fun k => k) lt conv None) cs os rs cs' /\
    Forall2 (holds (fun k => k) lt (small_rep SC (n + length os))) st' cs'.
Proof. intros. eapply set_run; eauto. Qed.
Print Assumptions C83_flat_set_partial.

(** Construction from a small_vector: the elements ascend,
    and every class of keys which was there is there once. *)
Theorem C83_construction :
  forall (E K C : Type) (key : E -> K) (lt : C -> K -> K -> bool)
    (moved : E -> E) (de : E) (SC RB : nat) (maxn : N)
    (sort : (E -> E -> bool) -> list E -> list E),
  0 < SC -> RB <= SC + 1 -> (maxn < two63)%N -> sorts sort ->
  forall c t l,
  strict_weak_order (lt c) -> small_rep SC (length l) t l -> room maxn (length l) ->
  exists s l' m,
    construct key lt (small_cont E moved de SC RB maxn) moved sort c t = Ok tt s /\
    holds key lt (small_rep SC (length l)) s (c, m) /\
    small_rep SC (length l) (fcont s) l' /\
    ascending key (lt c) l' /\
    (forall e, In e l' -> In e l) /\
    (forall e, In e l -> exists e', In e' l' /\ equivalent (lt c) (key e) (key e')) /\
    (forall e e', In e l' -> In e' l' -> equivalent (lt c) (key e) (key e') -> e = e').
Proof.
  intros E K C key lt moved de SC RB maxn sort HSC HRB Hmax S c t l W R Hr.
  exact (C25_construction E K C _ key lt (limited moved de SC RB maxn (length l)) _ _ moved sort
    (limited_conforms moved de SC RB maxn HSC HRB Hmax (length l) Hr) S c t l W R).
Qed.
Print Assumptions C83_construction.

(** operator== of maps (or sets) with the same comparator compares the contents; where the
    elements lie and how much room there is make no difference. *)
Theorem C83_equality :
  forall (E K C : Type) (key : E -> K) (lt : C -> K -> K -> bool)
    (moved : E -> E) (de : E) (SC RB : nat) (maxn : N) (eqb : E -> E -> bool) (n : nat),
  0 < SC -> RB <= SC + 1 -> (maxn < two63)%N -> room maxn n ->
  (forall c, strict_weak_order (lt c)) ->
  (forall x y, eqb x y = true <-> x = y) ->
  let cont := small_cont E moved de SC RB maxn in
  forall (a b : flat C (@vec E)) c ma mb,
  holds key lt (small_rep SC n) a (c, ma) -> holds key lt (small_rep SC n) b (c, mb) ->
  exists r, equal cont eqb a b = Ok r (fcont a, fcont b) /\
    not_equal cont eqb a b = Ok (negb r) (fcont a, fcont b) /\
    (r = true <-> forall k, ma k = mb k).
Proof.
  intros E K C key lt moved de SC RB maxn eqb n HSC HRB Hmax Hr W Heq cont a b c ma mb Ha Hb.
  exact (equal_maps_fact key lt (limited moved de SC RB maxn n) (Some n) (small_rep SC n) eqb
    (limited_conforms moved de SC RB maxn HSC HRB Hmax n Hr) W Heq a b c ma mb Ha Hb).
Qed.
Print Assumptions C83_equality.

(** A call which throws - for want of memory, or from [at] - leaves the map or set as it
    was, in every state and whatever the comparator answers, as long as constructing the
    element does not throw. *)
Theorem C83_out_of_memory_partial :
  (forall (K T Q C : Type) (kq : C -> K -> Q -> bool) (qk : C -> Q -> K -> bool)
     (conv : Q -> K) (asq : K -> Q) (dflt : T) moved de SC RB maxn
     (s s' : flat C (@vec (K * T))) (o : mop K T Q) x,
   vfuse (fcont s) = None ->
   mcall kq qk (small_cont (K * T) moved de SC RB maxn) conv dflt asq o s = Throw x s' ->
   s' = s) /\
  (forall (K Q C : Type) (kq : C -> K -> Q -> bool) (qk : C -> Q -> K -> bool)
     (asq : K -> Q) moved de SC RB maxn (s s' : flat C (@vec K)) (o : fop K Q) x,
   vfuse (fcont s) = None ->
   fcall (T := unit) (fun k => k) kq qk (small_cont K moved de SC RB maxn) asq o s = Throw x s' ->
   s' = s).
Proof.
  assert (HL : forall A B C CT (f : C -> A -> B -> bool), leaves_alone (calm (CT := CT) f)).
  { intros A B C CT f a b s. reflexivity. }
  split.
  - intros K T Q C kq qk conv asq dflt moved de SC RB maxn s s' o x F H.
    rewrite <- (proj1 (C81_no_throw_same K T Q C _ kq qk)) in H.
    exact (proj1 C81_strong_partial K T Q C _ _ _ (calm kq) (calm qk) conv dflt asq
      (small_strong moved de SC RB maxn) (HL _ _ _ _ kq) (HL _ _ _ _ qk) s s' o x F H).
  - intros K Q C kq qk asq moved de SC RB maxn s s' o x F H.
    rewrite <- (proj2 (C81_no_throw_same K unit Q C _ kq qk)) in H.
    exact (proj2 C81_strong_partial K Q C _ _ _ (calm kq) (calm qk) asq
      (small_strong moved de SC RB maxn) (HL _ _ _ _ kq) (HL _ _ _ _ qk) s s' o x F H).
Qed.
Print Assumptions C83_out_of_memory_partial.

(** A map over a small_vector of two elements grows out of the static buffer and goes back
    into it; the second insertion of 5 finds the key in the dynamic buffer; when only three
    elements can be allocated, the fourth key cannot be inserted. *)
Example C83_case :
  let lt := fun _ : unit => Nat.ltb in
  let cont := small_cont (nat * nat) (fun e => (fst e, 0)) (0, 0) 2 3 100 in
  let call := mcall lt lt cont (fun k => k) 0 (fun k => k) in
  let m0 := mkFlat tt (init_vec 2) : flat unit (@vec (nat * nat)) in
  let os := [FOn 0 (MIndexSet 7 1); FOn 0 (MIndexSet 5 2); FOn 0 (MIndexSet 3 4);
             FOn 0 (MCommon (FInsert (5, 9))); FOn 0 (MCommon (FLower 6));
             FOn 0 (MCommon (FEraseKey 7)); FOn 0 (MIndex 5)] in
  room 100 (0 + length os) /\ no_swap os /\
  Forall2 (holds fst lt (small_rep 2 0)) [m0] [(tt, fempty)] /\
  match frun (fsys cont call) [m0] (firstn 3 os) with
  | Some ([s], _) => vb (fcont s) <> 0 /\
      (let cont := small_cont (nat * nat) (fun e => (fst e, 0)) (0, 0) 2 3 3 in
       mcall lt lt cont (fun k => k) 0 (fun k => k) (MIndexSet 9 1) s = Throw BadAlloc s)
  | _ => False
  end /\
  match frun (fsys cont call) [m0] os with
  | Some ([s], rs) => vb (fcont s) = 0 /\
      rs = [ANone; ANone; ANone; AIns 1 false; AIter 2; ACount 1; AVal 2]
  | _ => False
  end.
Proof.
  cbv zeta. split; [discriminate|]. split; [repeat constructor; discriminate|]. split; [|split].
  - repeat constructor. exists []. split; [|apply enum_empty].
    split; [|split; [reflexivity|apply le_n]].
    split; [reflexivity|]. split; [apply Nat.le_0_l|]. split; [reflexivity|]. split; [reflexivity|].
    split; [now intros []|]. intros [|j] Hj Hv Hl; [easy|]. cbn in Hl. lia.
  - vm_compute. split; [discriminate|reflexivity].
  - vm_compute. split; reflexivity.
Qed.

(** * What does not *)

(** If constructing the new element throws, the map or set cannot even be destroyed any
    more: whatever it holds, and wherever the new key belongs. *)
Theorem C83_element_throws_refuted :
  forall (E K Q C : Type) (key : E -> K) (lt : C -> K -> K -> bool) (kq : C -> K -> Q -> bool)
    (qk : C -> Q -> K -> bool) (conv : Q -> K) (moved : E -> E) (de : E) (SC RB : nat) (maxn : N),
  (forall c, strict_weak_order (lt c)) ->
  (forall c k q, kq c k q = lt c k (conv q)) ->
  (forall c k q, qk c q k = lt c (conv q) k) ->
  0 < SC -> RB <= SC + 1 -> (maxn < two63)%N ->
  forall c t l m q e,
  SmallVectorSpec.holds SC t l -> vfuse t = Some 0 -> room maxn (length l + 1) ->
  enumerates key lt c l m -> conv q = key e -> m (key e) = None ->
  exists s', FlatModel.insert key kq qk (small_cont E moved de SC RB maxn) q e (mkFlat c t) =
      Throw ElemThrow s' /\
    fcmp s' = c /\ SmallVectorModel.destructor (fcont s') = UB.
Proof. intros. eapply insert_throw; eauto. Qed.
Print Assumptions C83_element_throws_refuted.

Example C83_throw_case :
  let lt := fun _ : unit => Nat.ltb in
  let t := mkVec [Blk [Live 2; Live 6; Raw]] 0 (0, 2) 3 (Some 0) in
  SmallVectorSpec.holds 3 t [2; 6] /\
  enumerates (fun k => k) lt tt [2; 6] (fun k => List.find (fun e => equivb lt tt k e) [2; 6]) /\
  FlatModel.insert (fun k => k) lt lt (small_cont nat S 0 3 0 100) 4 4 (mkFlat tt t) =
    Throw ElemThrow (mkFlat tt (mkVec [Blk [Live 2; Raw; Live 6]] 0 (0, 3) 3 None)).
Proof.
  cbv zeta. split; [|split; [|reflexivity]].
  - split; [reflexivity|]. split; [cbn; lia|]. split; [reflexivity|]. split; [reflexivity|].
    split; [now intros []|]. intros [|j] Hj Hv Hl; [easy|]. cbn in Hl. lia.
  - apply (enum_exists (fun k : nat => k) (fun _ : unit => Nat.ltb) tt nat_swo).
    intros [|[|i]] [|[|j]] a b Hij Ha Hb; try lia; cbn in *; try congruence;
      try (destruct i; discriminate); try (destruct j; discriminate).
    injection Ha as <-. injection Hb as <-. reflexivity.
Qed.
