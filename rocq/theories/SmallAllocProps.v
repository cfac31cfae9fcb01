(** C75: small_vector and allocators which have state (std::allocator_traits). *)
From Coq Require Import List Arith NArith ZArith Bool Lia.
From Verif Require Import Base SeqSpec VecCommon SmallVectorModel SmallVectorSpec SmallVectorProofs
  SmallAllocModel SmallAllocSpec SmallAllocProofs.
Import ListNotations.

(** Any program of vectors with any allocators - constructed, copied, moved, assigned over each other,
    destroyed: no memory is ever given back through an allocator other than the one it came from (that
    would be undefined behaviour, and the history would not run), every vector holds the elements it
    should, a copy assignment keeps the allocator and a move assignment takes the other one's, and the
    destroyed vectors have given everything back. *)
Theorem C75_every_history_partial {V A} (moved : V -> V) (dflt : V) SC RB maxn (same : A -> A -> bool) select :
  0 < SC -> RB <= SC + 1 -> (maxn < two63)%N -> (forall x, same x x = true) ->
  forall os, a_along dflt select own_rule (a_ok maxn) [] os ->
  exists cells,
    run_calls (a_call moved dflt SC RB maxn same select) [] os = Some (cells, snd (std_run dflt select own_rule [] os)) /\
    Forall2 (a_shows SC) cells (fst (std_run dflt select own_rule [] os)).
Proof.
  intros HSC HRB Hmax Hs os Al.
  destruct (a_run_spec moved dflt SC RB maxn same select HSC HRB Hmax Hs os [] [] (Forall2_nil _) Al) as (cells & E & F).
  exists cells. split; [exact E|]. now apply stands_shows_all.
Qed.
Print Assumptions C75_every_history_partial.

(** What the traits of the allocator ask for, in every history in which they agree with that: vectors
    whose allocators differ are copy assigned only if the allocator does not propagate on copy assignment
    and move assigned only if it does on move assignment. *)
Theorem C75_traits_partial {V A} (moved : V -> V) (dflt : V) SC RB maxn (same : A -> A -> bool) select tr :
  0 < SC -> RB <= SC + 1 -> (maxn < two63)%N -> (forall x, same x x = true) ->
  forall os, a_along dflt select tr (fun cs o => a_ok maxn cs o /\ respected tr cs o) [] os ->
  exists cells,
    run_calls (a_call moved dflt SC RB maxn same select) [] os = Some (cells, snd (std_run dflt select tr [] os)) /\
    Forall2 (a_shows SC) cells (fst (std_run dflt select tr [] os)).
Proof.
  intros HSC HRB Hmax Hs os Al. destruct (respected_run dflt maxn select tr os [] Al) as (E & Al'). rewrite <- E.
  now apply C75_every_history_partial.
Qed.
Print Assumptions C75_traits_partial.

(** Otherwise not: after any history, copy assignment from a vector with another allocator does not
    propagate it though the traits say so... *)
Theorem C75_copy_refuted {V A} (moved : V -> V) (dflt : V) SC RB maxn (same : A -> A -> bool) select tr :
  0 < SC -> RB <= SC + 1 -> (maxn < two63)%N -> (forall x, same x x = true) -> pocca tr = true ->
  forall os i j xs x ys y, a_along dflt select own_rule (a_ok maxn) [] os ->
  cont_at (fst (std_run dflt select own_rule [] os)) i = Some (xs, x) ->
  cont_at (fst (std_run dflt select own_rule [] os)) j = Some (ys, y) ->
  x <> y -> room maxn (length ys) ->
  exists cells rs,
    run_calls (a_call moved dflt SC RB maxn same select) [] (os ++ [ACopyAssign i j]) = Some (cells, rs) /\
    ~ Forall2 (a_shows SC) cells
        (fst (std_step dflt select tr (fst (std_run dflt select own_rule [] os)) (ACopyAssign i j))).
Proof.
  intros HSC HRB Hmax Hs Ht os i j xs x ys y Al Ei Ej Ne R.
  destruct (along_app dflt select own_rule (a_ok maxn) os (ACopyAssign i j) [] Al) as (Al' & Es).
  { cbn [a_ok]. eauto 6. }
  destruct (C75_every_history_partial moved dflt SC RB maxn same select HSC HRB Hmax Hs _ Al') as (cells & E & F).
  do 2 eexists. split; [exact E|]. rewrite Es in F. set (cs := fst (std_run dflt select own_rule [] os)) in *.
  pose proof (cont_at_lt _ _ _ Ei) as L. revert F. apply (shows_differ SC _ _ _ i ys x ys y); [| |exact Ne];
    cbn [std_step]; rewrite Ei, Ej; [|rewrite Ht]; cbn [fst pocca own_rule]; now apply cont_upd_eq.
Qed.
Print Assumptions C75_copy_refuted.

(** ... and move assignment takes it over though the traits say no. *)
Theorem C75_move_refuted {V A} (moved : V -> V) (dflt : V) SC RB maxn (same : A -> A -> bool) select tr :
  0 < SC -> RB <= SC + 1 -> (maxn < two63)%N -> (forall x, same x x = true) -> pocma tr = false ->
  forall os i j xs x ys y, a_along dflt select own_rule (a_ok maxn) [] os ->
  cont_at (fst (std_run dflt select own_rule [] os)) i = Some (xs, x) ->
  cont_at (fst (std_run dflt select own_rule [] os)) j = Some (ys, y) ->
  x <> y ->
  exists cells rs,
    run_calls (a_call moved dflt SC RB maxn same select) [] (os ++ [AMoveAssign i j]) = Some (cells, rs) /\
    ~ Forall2 (a_shows SC) cells
        (fst (std_step dflt select tr (fst (std_run dflt select own_rule [] os)) (AMoveAssign i j))).
Proof.
  intros HSC HRB Hmax Hs Ht os i j xs x ys y Al Ei Ej Ne.
  assert (Nij : i <> j) by (intros ->; rewrite Ei in Ej; injection Ej as -> ->; now apply Ne).
  destruct (along_app dflt select own_rule (a_ok maxn) os (AMoveAssign i j) [] Al) as (Al' & Es).
  { cbn [a_ok]. eauto 6. }
  destruct (C75_every_history_partial moved dflt SC RB maxn same select HSC HRB Hmax Hs _ Al') as (cells & E & F).
  do 2 eexists. split; [exact E|]. rewrite Es in F. set (cs := fst (std_run dflt select own_rule [] os)) in *.
  pose proof (cont_at_lt _ _ _ Ei) as L. revert F. apply (shows_differ SC _ _ _ i ys y ys x); [| |congruence];
    cbn [std_step]; rewrite Ei, Ej; destruct (Nat.eqb_spec i j) as [e|_]; try contradiction;
    [|rewrite Ht]; cbn [fst pocma own_rule]; rewrite cont_upd_neq by exact Nij; now apply cont_upd_eq.
Qed.
Print Assumptions C75_move_refuted.

(** Two arenas, 7 and 8; a vector which grew in 7, its copy, one moved from it into one which grew in 8,
    and one destroyed. *)
Definition demo : list (@aop nat nat) :=
  [ANew 7; AOn 0 (Seq (PushBack 1)); AOn 0 (Seq (PushBack 2)); AOn 0 (Seq (PushBack 3));
   ANew 8; AOn 1 (Seq (PushBack 4)); AOn 1 (Seq (PushBack 5)); AOn 1 (Seq (PushBack 6));
   ANewCopy 0; AMoveAssign 1 0; AOn 0 (Seq (PushBack 9)); ACopyAssign 0 1; ADestroy 2; ANewMove 1; ADestroy 3].
Example C75_demo_legal : a_along 0 (fun x => x) own_rule (a_ok 1000) [] demo.
Proof. cbn. repeat split; repeat eexists; cbn; unfold fits, room, two64; try lia; auto. all: cbn; lia. Qed.
Example C75_demo_std :
  fst (std_run 0 (fun x => x) own_rule [] demo) =
  [Some ([1; 2; 3], 7); Some ([], 7); None; None].
Proof. reflexivity. Qed.
(** With the same elements all through one arena, any traits are respected. *)
Example C75_demo_respected :
  a_along 0 (fun x => x) (mkTraits true false) (fun cs o => a_ok 1000 cs o /\ respected (mkTraits true false) cs o) []
    [ANew 7; AOn 0 (Seq (PushBack 1)); ANew 7; ACopyAssign 1 0; AMoveAssign 0 1].
Proof. cbn. repeat split; repeat eexists; cbn; unfold fits, room, two64; try lia; auto. all: cbn; lia. Qed.
(** Allocators which differ: copy assignment with propagation. *)
Example C75_demo_differ :
  cont_at (fst (std_run 0 (fun x => x) own_rule [] (firstn 8 demo))) 0 = Some ([1; 2; 3], 7) /\
  cont_at (fst (std_run 0 (fun x => x) own_rule [] (firstn 8 demo))) 1 = Some ([4; 5; 6], 8).
Proof. split; reflexivity. Qed.
(** Given back through another allocator: undefined. *)
Example C75_demo_wrong_arena :
  lift Nat.eqb (@destructor nat)
    (mkA (mkVec [Blk (repeat Raw 2); Blk [Live 1; Raw; Raw]] 1 (1, 1) 3 None) 7 [7; 8]) = UB.
Proof. reflexivity. Qed.
