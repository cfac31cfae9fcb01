(** C81: flat_map and flat_set when something throws. *)
From Coq Require Import List Arith NArith Bool Lia.
From Verif Require Import Base SeqSpec VecCommon StaticVectorModel StaticVectorSpec
  FlatModel FlatSpec FlatProofs FlatProps FlatExnModel FlatExnSpec FlatExnProofs.
Import ListNotations.

(** The model with comparisons as calls is the one of C22 - C27 when none of them throws. *)
Theorem C81_no_throw_same :
  forall (K T Q C CT : Type) (kq : C -> K -> Q -> bool) (qk : C -> Q -> K -> bool),
  (forall (cont : container (K * T) CT) conv dflt asq (o : mop K T Q) s,
    mcall_x (calm kq) (calm qk) cont conv dflt asq o s = mcall kq qk cont conv dflt asq o s) /\
  (forall (cont : container K CT) asq (o : fop K Q) s,
    fcall_x (T := T) (fun k => k) (calm kq) (calm qk) cont asq o s =
    fcall (fun k => k) kq qk cont asq o s).
Proof. intros. split; intros; [apply mcall_same|apply fcall_same]. Qed.
Print Assumptions C81_no_throw_same.

(** * What holds *)

(** Comparisons may throw, each at any time: a call of a flat_map either ends with that
    exception and the map is exactly as it was, or does what the finite map specification
    says.  (The container may still be full.)  Missing: exceptions of other operations. *)
Theorem C81_flat_map_comparisons_partial :
  forall (K T Q C CT : Type) (lt : C -> K -> K -> bool) (kq : C -> K -> Q -> bool)
    (qk : C -> Q -> K -> bool) (conv : Q -> K) (asq : K -> Q) (dflt : T)
    (cont : container (K * T) CT) (cap : option nat) (rep : CT -> list (K * T) -> Prop)
    (kqm : K -> Q -> M (flat C CT) bool) (qkm : Q -> K -> M (flat C CT) bool),
  conforms cont cap rep -> plain_reads cont ->
  (forall c, strict_weak_order (lt c)) ->
  (forall c k q, kq c k q = lt c k (conv q)) ->
  (forall c k q, qk c q k = lt c (conv q) k) ->
  (forall k, conv (asq k) = k) ->
  may_throw kq kqm -> may_throw qk qkm ->
  forall (s : flat C CT) m o,
  holds fst lt rep s (fcmp s, m) ->
  mallowed lt conv (fcmp s) m o ->
  (exists x, mcall_x kqm qkm cont conv dflt asq o s = Throw x s) \/
  (exists s' m' a,
     fobserve (mcall_x kqm qkm cont conv dflt asq o s) = Some (s', a) /\
     step1 fst lt (mmeans lt conv dflt cap) (fcmp s, m) o (fcmp s, m') a /\
     holds fst lt rep s' (fcmp s, m')).
Proof. exact @map_throw_fact. Qed.
Print Assumptions C81_flat_map_comparisons_partial.

Theorem C81_flat_set_comparisons_partial :
  forall (K Q C CT : Type) (lt : C -> K -> K -> bool) (kq : C -> K -> Q -> bool)
    (qk : C -> Q -> K -> bool) (conv : Q -> K) (asq : K -> Q)
    (cont : container K CT) (cap : option nat) (rep : CT -> list K -> Prop)
    (kqm : K -> Q -> M (flat C CT) bool) (qkm : Q -> K -> M (flat C CT) bool),
  conforms cont cap rep -> plain_reads cont ->
  (forall c, strict_weak_order (lt c)) ->
  (forall c k q, kq c k q = lt c k (conv q)) ->
  (forall c k q, qk c q k = lt c (conv q) k) ->
  (forall k, conv (asq k) = k) ->
  may_throw kq kqm -> may_throw qk qkm ->
  forall (s : flat C CT) m o,
  holds (fun k => k) lt rep s (fcmp s, m) ->
  fallowed (fun k => k) lt conv (fcmp s) m o ->
  (exists x, fcall_x (T := unit) (fun k => k) kqm qkm cont asq o s = Throw x s) \/
  (exists s' m' (a : fret unit),
     fobserve (fcall_x (fun k => k) kqm qkm cont asq o s) = Some (s', a) /\
     step1 (fun k => k) lt (fmeans (fun k => k) lt conv cap) (fcmp s, m) o (fcmp s, m') a /\
     holds (fun k => k) lt rep s' (fcmp s, m')).
Proof. exact @set_throw_fact. Qed.
Print Assumptions C81_flat_set_comparisons_partial.

(** Over a container which is as it was after an exception, and with comparisons which
    leave the object alone, a call which throws leaves the object as it was; whatever the
    comparisons answer. *)
Theorem C81_strong_partial :
  (forall (K T Q C CT : Type) (cont : container (K * T) CT) (I : CT -> Prop)
     (kqm : K -> Q -> M (flat C CT) bool) (qkm : Q -> K -> M (flat C CT) bool) conv dflt asq,
   strong_container cont I -> leaves_alone kqm -> leaves_alone qkm ->
   forall (s s' : flat C CT) (o : mop K T Q) x,
   I (fcont s) -> mcall_x kqm qkm cont conv dflt asq o s = Throw x s' -> s' = s) /\
  (forall (K Q C CT : Type) (cont : container K CT) (I : CT -> Prop)
     (kqm : K -> Q -> M (flat C CT) bool) (qkm : Q -> K -> M (flat C CT) bool) asq,
   strong_container cont I -> leaves_alone kqm -> leaves_alone qkm ->
   forall (s s' : flat C CT) (o : fop K Q) x,
   I (fcont s) -> fcall_x (T := unit) (fun k => k) kqm qkm cont asq o s = Throw x s' -> s' = s).
Proof.
  split.
  - intros K T Q C CT cont I kqm qkm conv dflt asq H1 H2 H3 s s' o x Hi H.
    eapply (mcall_safe kqm qkm cont I conv dflt asq o H1 H2 H3); eauto.
  - intros K Q C CT cont I kqm qkm asq H1 H2 H3 s s' o x Hi H.
    eapply (fcall_safe (fun k => k) kqm qkm cont I H1 H2 H3 asq o); eauto.
Qed.
Print Assumptions C81_strong_partial.

(** std::vector is such a container if moving its elements does not throw, and
    static_vector is one as long as constructing an element does not. *)
Theorem C81_strong_containers :
  (forall E moved full, strong_container (vec_cont_x E moved None full) (fun _ => True)) /\
  (forall E moved dflt Capacity,
    strong_container (sv_cont E moved dflt Capacity) (fun t => fuse t = None)).
Proof. split; [apply @vec_strong|apply @sv_strong]. Qed.
Print Assumptions C81_strong_containers.

(** Comparisons which throw for one key: a lookup which meets it fails, and one which does
    not is answered. *)
Example C81_case :
  let bad := fun a b (s : flat unit (list (nat * nat))) =>
    if (a =? 6) || (b =? 6) then Throw (S := flat unit (list (nat * nat))) ElemThrow s
    else Ok (a <? b) s in
  let s := mkFlat tt [(2, 1); (4, 1); (6, 1)] in
  let call := mcall_x bad bad (vec_cont (nat * nat)) (fun k => k) 0 (fun k => k) in
  may_throw (fun _ : unit => Nat.ltb) bad /\
  call (MCommon (FInsert (5, 7))) s = Throw ElemThrow s /\
  call (MIndexSet 4 9) s = Ok ANone (mkFlat tt [(2, 1); (4, 9); (6, 1)]) /\
  call (MIndexSet 3 9) s = Ok ANone (mkFlat tt [(2, 1); (3, 9); (4, 1); (6, 1)]).
Proof.
  cbv zeta. split; [|split; [|split]]; try (vm_compute; reflexivity).
  intros a b s. destruct ((a =? 6) || (b =? 6)); [right; now exists ElemThrow|now left].
Qed.

(** * What does not *)

(** Over std::vector, whatever the map or set holds: if moving an element up throws while
    making room for a new one, the exception leaves an element in the sequence twice (as
    long as a moved-from key is not smaller than it was), and the object is no map or set
    any more.  [n]: the move which throws, not the first. *)
Theorem C81_insert_refuted :
  forall (E K C : Type) (key : E -> K) (lt : C -> K -> K -> bool) (moved : E -> E)
    (full : bool) c l m e n y,
  strict_weak_order (lt c) ->
  enumerates key lt c l m -> m (key e) = None ->
  1 <= n <= length l -> nth_error l (length l - n) = Some y -> lt c (key e) (key y) = true ->
  lt c (key (moved y)) (key y) = false ->
  exists s',
    insert_x key (calm lt) (calm lt) (vec_cont_x E moved (Some n) full) (key e) e (mkFlat c l) =
      Throw ElemThrow s' /\
    fcmp s' = c /\ ~ ascending key (lt c) (fcont s') /\
    forall m', ~ holds key lt (fun t l => t = l) s' (c, m').
Proof. exact @insert_broken_fact. Qed.
Print Assumptions C81_insert_refuted.

Example C81_insert_case :
  let s := mkFlat tt [2; 4; 6] in
  enumerates (fun k => k) (fun _ : unit => Nat.ltb) tt [2; 4; 6]
    (fun k => List.find (fun e => equivb (fun _ : unit => Nat.ltb) tt k e) [2; 4; 6]) /\
  insert_x (fun k => k) (calm (fun _ => Nat.ltb)) (calm (fun _ => Nat.ltb))
    (vec_cont_x nat (fun x => x) (Some 2) false) 3 3 s =
  Throw ElemThrow (mkFlat tt [2; 4; 4; 6]).
Proof.
  cbv zeta. split; [|vm_compute; reflexivity].
  apply (enum_exists (fun k => k) (fun _ : unit => Nat.ltb) tt nat_swo).
  intros [|[|[|i]]] [|[|[|j]]] a b Hij Ha Hb; try lia; cbn in *; try congruence;
    try (destruct i; discriminate); try (destruct j; discriminate);
    injection Ha as <-; injection Hb as <-; reflexivity.
Qed.

(** Copy assignment which runs out of memory has taken over the other's comparator
    already: with elements which that orders differently, the object is no map or set any
    more, though std::vector kept its elements. *)
Theorem C81_copy_assign_refuted :
  forall (E K C : Type) (key : E -> K) (lt : C -> K -> K -> bool) (moved : E -> E) bad
    (a b : flat C (list E)) i j u v,
  i < j -> nth_error (fcont a) i = Some u -> nth_error (fcont a) j = Some v ->
  lt (fcmp b) (key u) (key v) = false ->
  exists a',
    FlatModel.copy_assign (vec_cont_x E moved bad true) (a, b) = Throw BadAlloc (a', b) /\
    fcont a' = fcont a /\
    forall c' m', ~ holds key lt (fun t l => t = l) a' (c', m').
Proof. exact @copy_assign_broken_fact. Qed.
Print Assumptions C81_copy_assign_refuted.

(** Otherwise both are what the other was, whatever insertions would throw. *)
Theorem C81_copy_assign_partial :
  forall (E C : Type) (moved : E -> E) bad (a b : flat C (list E)),
  FlatModel.copy_assign (vec_cont_x E moved bad false) (a, b) = Ok tt (b, b).
Proof. intros E C moved bad [ca la] [cb lb]. reflexivity. Qed.
Print Assumptions C81_copy_assign_partial.

(** A map comparing upwards, assigned one comparing downwards. *)
Example C81_copy_assign_case :
  let lt := fun (up : bool) a b => if up then a <? b else b <? a in
  let a := mkFlat true [(1, 10); (2, 20)] in
  let b := mkFlat false [(9, 1); (8, 1)] in
  lt (fcmp b) 1 2 = false /\
  FlatModel.copy_assign (vec_cont_x (nat * nat) (fun x => x) None true) (a, b) =
    Throw BadAlloc (mkFlat false [(1, 10); (2, 20)], b) /\
  find fst lt lt (vec_cont _) 1 (mkFlat false [(1, 10); (2, 20)]) =
    Ok 2 (mkFlat false [(1, 10); (2, 20)]) /\
  FlatModel.copy_assign (vec_cont_x (nat * nat) (fun x => x) (Some 0) false) (a, b) = Ok tt (b, b).
Proof. cbv zeta. split; [reflexivity|]. repeat split; vm_compute; reflexivity. Qed.

(** Over static_vector: if constructing the new element throws, the object cannot even be
    cleared (or destroyed) without undefined behaviour; any absent key, anywhere. *)
Theorem C81_static_vector_refuted :
  forall (E K C : Type) (key : E -> K) (lt : C -> K -> K -> bool) (moved : E -> E) (dflt : E)
    (Capacity : nat),
  (N.of_nat Capacity < two63)%N ->
  forall c (t : @sv E) l m e,
  strict_weak_order (lt c) ->
  represents Capacity t l -> fuse t = Some 0 -> length l < Capacity ->
  enumerates key lt c l m -> m (key e) = None ->
  exists s',
    insert_x key (calm lt) (calm lt) (sv_cont E moved dflt Capacity) (key e) e (mkFlat c t) =
      Throw ElemThrow s' /\
    FlatModel.clear (sv_cont E moved dflt Capacity) s' = UB /\
    ~ usable Capacity (fcont s').
Proof. exact @static_broken_fact. Qed.
Print Assumptions C81_static_vector_refuted.

Example C81_static_vector_case :
  let s := mkFlat tt (mkSv [Live 2; Live 4; Raw] 2 (Some 0)) in
  represents 3 (fcont s) [2; 4] /\
  insert_x (fun k => k) (calm (fun _ => Nat.ltb)) (calm (fun _ => Nat.ltb))
    (sv_cont nat (fun x => x) 0 3) 3 3 s =
  Throw ElemThrow (mkFlat tt (mkSv [Live 2; Raw; Live 4] 3 None)).
Proof.
  cbv zeta. split; [|vm_compute; reflexivity].
  split; [reflexivity|]. split; [reflexivity|]. split; [cbn; lia|].
  intros [|[|[|i]]] Hi; cbn in *; try reflexivity; lia.
Qed.
