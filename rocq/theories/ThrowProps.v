(** C57, C67: throw_ex. *)
From Coq Require Import List Bool.
From Verif Require Import Base ThrowModel ThrowSpec ThrowProofs.
Import ListNotations.

Section Props.
Context {C F : Type}.
Variable fmt0 : F.
Variable used : F -> F.
Variable args_first : bool.
Variable ctor_throws : nat -> list C -> option nat.
Notation run := (@run C F fmt0 used args_first ctor_throws).

(** In every program whose operands neither fail nor throw, each statement throws its exception
    with the texts of all operands in order, or terminates if another one is propagating. *)
Theorem C57_programs_partial (p : prog C F) u : calm p ->
  exists c o, ev fmt0 used ctor_throws u p c o /\ run u p = (c, o).
Proof.
  intros H. destruct (ev_total fmt0 used ctor_throws p H u) as (c & o & E).
  exists c, o. split; [exact E|]. now apply run_ev.
Qed.
(** There is no other outcome. *)
Theorem C57_only_partial (p : prog C F) u c o : ev fmt0 used ctor_throws u p c o -> run u p = (c, o).
Proof. apply run_ev. Qed.

(** False if an operand fails: the texts after it are missing. *)
Theorem C57_failing_operand_refuted E (t1 t2 : list C) : ctor_throws E t1 = None ->
  run false (ThrowEx E [ mkOp None [Text (fun _ => t1)]; mkOp None [Fails];
                         mkOp None [Text (fun _ => t2)] ]) = ([], Threw (Ex E t1)).
Proof. intros H. unfold ThrowModel.run, throw_ex. cbn. destruct args_first; cbn; now rewrite H. Qed.
(** False if the constructor of the exception throws: it is not of the chosen type. *)
Theorem C57_constructor_refuted E (t : list C) n : ctor_throws E t = Some n ->
  run false (ThrowEx E [ mkOp None [Text (fun _ => t)] ]) = ([], Threw (Other n)).
Proof. intros H. unfold ThrowModel.run, throw_ex. cbn. destruct args_first; cbn; now rewrite H. Qed.

(** C67: unless destructors use it, throw_ex does what throw does. *)
Theorem C67_as_throw_partial (p : prog C F) c o : dtors_without p ->
  plain fmt0 used ctor_throws p c o -> run false p = (c, o).
Proof. intros D H. apply run_plain; auto. Qed.
(** In a destructor run by another exception it terminates, though a handler is there for it. *)
Theorem C67_unwinding_refuted E n (xs : list (operand C F)) ts :
  texts used fmt0 xs ts -> ctor_throws E (concat ts) = None ->
  let p := Try (Scope (ThrowOther n) (Try (ThrowEx E xs) Skip)) Skip in
  run false p = ([], Terminated) /\
  plain fmt0 used ctor_throws p ([] ++ ([] ++ Ex E (concat ts) :: []) ++ Other n :: []) Normal.
Proof.
  intros T N p. split.
  - apply run_ev. eapply ev_try_out; [|discriminate].
    apply (ev_scope_both _ _ _ _ _ _ [] (Other n) [] Terminated); [apply ev_other| |discriminate].
    eapply ev_try_out; [|discriminate]. now eapply ev_twice; eauto.
  - subst p. eapply (pl_try _ _ _ _ _ ([] ++ [] ++ [Ex E (concat ts)])); [|constructor].
    eapply pl_scope; [apply pl_other|discriminate|]. eapply pl_try; [|constructor].
    eapply pl_throw; [exact T|left; auto].
Qed.
(** An exception from an inserter terminates. *)
Theorem C67_inserter_refuted u E (t : list C) n :
  run u (Try (ThrowEx E [ mkOp None [Text (fun _ => t); Throws n] ]) Skip) = ([], Terminated).
Proof. unfold ThrowModel.run, throw_ex. cbn. now destruct args_first. Qed.
End Props.
Print Assumptions C57_programs_partial.
Print Assumptions C57_only_partial.
Print Assumptions C57_failing_operand_refuted.
Print Assumptions C57_constructor_refuted.
Print Assumptions C67_as_throw_partial.
Print Assumptions C67_unwinding_refuted.
Print Assumptions C67_inserter_refuted.

(** Since C++17 the same goes for the evaluation of an operand; before, the compiler decides. *)
Theorem C67_argument_refuted {C F : Type} (fmt0 : F) (used : F -> F) ctor_throws u E n :
  run fmt0 used false ctor_throws u
    (Try (ThrowEx E [ @mkOp C F (Some n) [] ]) Skip) = ([], Terminated) /\
  run fmt0 used true ctor_throws u
    (Try (ThrowEx E [ @mkOp C F (Some n) [] ]) Skip) = ([Other n], Normal).
Proof. split; reflexivity. Qed.
Print Assumptions C67_argument_refuted.

(** A number is shown in hexadecimal after a manipulator; a handler throws again; a destructor
    throws and catches while nothing propagates. Characters are numbers, a format is a base. *)
Definition num (n : nat) : operand nat nat :=
  mkOp None [Text (fun base => if Nat.eqb base 16 then [0; n] else [n])].
Definition hex : operand nat nat := mkOp None [Manip (fun _ => 16)].
Definition lit (t : list nat) : operand nat nat := mkOp None [Text (fun _ => t)].
Definition ex_p : prog nat nat :=
  Try (Seq (Scope Skip (Try (ThrowEx 1 [num 5]) Skip))
           (Try (ThrowEx 2 [lit [1; 2]; num 3; hex; num 3]) (ThrowEx 3 []))) Skip.
Example C57_ex : calm ex_p /\
  run 10 (fun f => f) true (fun _ _ => None) false ex_p =
  ([Ex 1 [5]; Ex 2 [1; 2; 3; 0; 3]; Ex 3 []], Normal).
Proof. split; [cbn; repeat split; repeat constructor|reflexivity]. Qed.
(** Only the destructor has to go. *)
Definition ex_q : prog nat nat :=
  Try (Scope (Try (ThrowEx 2 [num 3; hex; num 4]) (ThrowEx 3 [])) Skip) (ThrowOther 7).
Example C67_ex : dtors_without ex_q /\
  plain 10 (fun f => f) (fun _ _ => None) ex_q [Ex 2 [3; 0; 4]; Ex 3 []] (Threw (Other 7)).
Proof.
  split; [cbn; tauto|].
  apply (pl_try _ _ _ _ _ [Ex 2 [3; 0; 4]] (Ex 3 []) []); [|constructor].
  apply (pl_scope _ _ _ _ _ [Ex 2 [3; 0; 4]] []); [|discriminate|constructor].
  apply (pl_try _ _ _ _ _ [] (Ex 2 [3; 0; 4]) []).
  - apply (pl_throw _ _ _ 2 _ [[3]; []; [0; 4]]); [|left; auto].
    repeat (econstructor; [reflexivity| |]); try constructor.
    + apply (sh_text _ 10 (fun base => if Nat.eqb base 16 then [0; 3] else [3]) []). constructor.
    + constructor.
    + apply (sh_text _ 16 (fun base => if Nat.eqb base 16 then [0; 4] else [4]) []). constructor.
  - apply (pl_throw _ _ _ 3 _ []); [constructor|left; auto].
Qed.
