(** C104: generators in generators. *)
From Coq Require Import List Arith Bool Lia.
From Verif Require Import Base GenNestModel GenNestSpec GenNestProofs.
Import ListNotations.

(** Whatever is done with generators whose bodies make, draw from, move and drop generators of
    their own, to any depth: the answers are those of generators which are plain values, every
    coroutine frame has exactly one holder, and nothing undefined happens. However many steps are
    granted, the outcome is that one if they suffice. *)
Theorem C104_refines {St V E : Type} (run : St -> act St V E) (moved : V -> V) (os : list (gop St)) gs xs :
  history run moved [] os gs xs ->
  exists (s : store St V E) hs,
    (exists N, forall n, N <= n -> calls run moved n [] os init = Ok (hs, xs) s) /\
    (forall n, calls run moved n [] os init = Diverge \/ calls run moved n [] os init = Ok (hs, xs) s) /\
    owned_once s hs /\
    length hs = length gs /\ (forall i, nth_error gs i = Some None <-> nth_error hs i = Some None).
Proof.
  intros H. destruct (from_init run moved gs os xs H) as (N & s & hs & fs & D & B & R & ND & OUT).
  exists s, hs. split; [ eauto | split; [ exact B | split; [| split ]]].
  - eapply owned_ok; eassumption.
  - eapply reps_length. exact R.
  - intros i. eapply reps_null. exact R.
Qed.
Print Assumptions C104_refines.

(** When the user has no generators left but null ones, no frame is left, of whatever depth, also
    of coroutines suspended in the middle. *)
Theorem C104_no_leaks {St V E : Type} (run : St -> act St V E) (moved : V -> V) (os : list (gop St)) gs xs :
  history run moved [] os gs xs -> Forall (fun o => o = None) gs ->
  exists (s : store St V E) hs,
    (exists N, forall n, N <= n -> calls run moved n [] os init = Ok (hs, xs) s) /\
    forall h, frames s h = None.
Proof.
  intros H A. destruct (from_init run moved gs os xs H) as (N & s & hs & fs & D & B & R & ND & OUT).
  exists s, hs. split; [ eauto |]. intros h. apply OUT. rewrite (reps_all_null _ _ _ _ R A). intros [].
Qed.
Print Assumptions C104_no_leaks.

(** The walk over any tree gives its values in order, each through as many generators as it is
    deep, then the exception of the first bad subtree if there is one, once, and nothing after;
    and dropped at any point it leaves no frame. *)
Theorem C104_walk {V E : Type} (moved : V -> V) (t : tree V E) (n : nat) :
  exists (s : store (at_walk V E) V E),
    (exists N, forall k, N <= k ->
       calls walk moved k [] (Make (Start t) :: repeat (Next 0) n ++ [Leave]) init =
       Ok ([], Nothing :: answers (in_order t) n ++ [Nothing]) s) /\
    forall h, frames s h = None.
Proof.
  destruct (emits_history moved n _ _ _ _ (walk_emits moved t) None) as (g & HG).
  assert (H : history walk moved [] (Make (Start t) :: repeat (Next 0) n ++ [Leave]) []
                (Nothing :: answers (in_order t) n ++ [Nothing])).
  { eapply hist_cons; [ apply does_make |]. cbn [app].
    destruct (in_order t) as (l & e). cbn [fst snd] in HG.
    revert HG. generalize (repeat (@Next (at_walk V E) 0) n), (answers (l, e) n), [Some (G (Some (Start t)) (@None V) [])].
    intros os xs gs HG. remember [Some g] as gl eqn:EQ.
    induction HG as [gs|gs o gs' x os gs'' xs D HG IH]; cbn.
    - subst. eapply hist_cons; [ apply (does_leave walk moved [] (Some g)) | constructor ].
    - eapply hist_cons; [ exact D | exact (IH EQ) ]. }
  destruct (from_init walk moved _ _ _ H) as (N & s & hs & fs & D & B & R & ND & OUT).
  inversion R; subst. exists s. split; [ exists N; exact D | intros h; apply OUT; intros [] ].
Qed.
Print Assumptions C104_walk.

(** A tree of three levels with a bad subtree, drawn from once more after the exception. *)
Definition C104_tree : tree nat nat :=
  Node (Node (Node Leaf 1 Leaf) 2 Leaf) 3 (Node (Node Leaf 4 (Bad 7)) 5 Leaf).
Example C104_walk_case :
  match calls walk (fun _ => 0) 100 [] (Make (Start C104_tree) :: repeat (Next 0) 6 ++ [Leave]) init with
  | Ok r _ => r = ([], [Nothing; Value (Some 1); Value (Some 2); Value (Some 3); Value (Some 4); Thrown 7;
                        Value None; Nothing])
  | _ => False
  end /\
  answers (in_order C104_tree) 6 =
    [Value (Some 1); Value (Some 2); Value (Some 3); Value (Some 4); Thrown 7; Value None].
Proof. split; vm_compute; reflexivity. Qed.

(** A history which moves a generator suspended inside a generator, and drops both. *)
Example C104_case :
  history walk (fun v : nat => v) []
    [Make (Start (Node (Node Leaf 1 Leaf) 2 (@Leaf nat nat))); Next 0; MoveNew 0; HasHandle 0; Next 1; IsDone 1;
     MoveTo 0 1; Clear 0]
    [None; None]
    [Nothing; Value (Some 1); Nothing; Bool false; Value (Some 2); Bool false; Nothing; Nothing].
Proof.
  eapply hist_cons; [ apply does_make |].
  eapply hist_cons.
  { refine (does_next _ _ _ 0 _ _ _ (Gave 1 _ _) _ _); [ reflexivity |].
    eapply goes_on; [ reflexivity | apply does_make |].
    eapply goes_on; [ reflexivity | |].
    { refine (does_next _ _ _ 0 _ _ _ (Gave 1 _ _) _ _); [ reflexivity |].
      eapply goes_on; [ reflexivity | apply does_make |].
      eapply goes_on; [ reflexivity | |].
      { refine (does_next _ _ _ 0 _ _ _ Ended _ _); [ reflexivity |]. apply goes_return. reflexivity. }
      apply goes_yield. reflexivity. }
    apply goes_yield. reflexivity. }
  eapply hist_cons; [ apply does_move_new; reflexivity |].
  eapply hist_cons; [ refine (does_handle _ _ _ 0 None _); reflexivity |].
  eapply hist_cons.
  { refine (does_next _ _ _ 1 _ _ _ (Gave 2 _ _) _ _); [ reflexivity |].
    eapply goes_on; [ reflexivity | |].
    { refine (does_next _ _ _ 0 _ _ _ Ended _ _); [ reflexivity |].
      eapply goes_on; [ reflexivity | apply does_make |].
      eapply goes_on; [ reflexivity | |].
      { refine (does_next _ _ _ 1 _ _ _ Ended _ _); [ reflexivity |]. apply goes_return. reflexivity. }
      apply goes_return. reflexivity. }
    apply goes_yield. reflexivity. }
  eapply hist_cons; [ refine (does_done _ _ _ 1 (Some _) _ _ _); reflexivity |].
  eapply hist_cons; [ eapply does_move_to; [ discriminate | reflexivity | reflexivity ] |].
  eapply hist_cons; [ eapply does_clear; reflexivity |].
  apply hist_nil.
Qed.
Example C104_case_no_leaks : Forall (fun o : option (gen (at_walk nat nat) nat) => o = None) [None; None].
Proof. repeat constructor. Qed.
