(** C54: sentry runs its function exactly once. *)
From Coq Require Import List Arith Bool.
From Verif Require Import Base SentryModel SentrySpec SentryProofs.
Import ListNotations.

Section Props.
Context {F : Type}.
Variable cxx17 : bool.
Variable moved : F -> F.
Variables ctor_throws move_throws call_throws : F -> bool.
Notation program := (program cxx17 moved ctor_throws move_throws call_throws).

(** In every program and however it ends, a function runs as a part of the destruction of the
    sentry which owns it, the last in its chain of moves, and at no other time. *)
Theorem C54_on_time_partial b s : ends (program b) s -> on_time (log s).
Proof. exact (program_on_time _ _ _ _ _ b s). Qed.

(** Once no sentry is left, every function given to one has run exactly once: of the functions
    of any kind, as many have run as were given. *)
Theorem C54_once_partial b s P : ends (program b) s -> (forall x, objs s x = None) ->
  ran_count P (log s) = made_count P (log s).
Proof. exact (program_count _ _ _ _ _ b s P). Qed.

(** Never twice, while sentries are left. *)
Theorem C54_not_twice_partial b s P : ends (program b) s ->
  ran_count P (log s) <= made_count P (log s).
Proof. exact (program_at_most _ _ _ _ _ b s P). Qed.

(** Sentries on the stack are all gone when the function has been left, also by an exception:
    then the previous theorem applies. *)
Theorem C54_scope_partial b s : fold_right (fun c r => automatic c /\ r) True b ->
  program b = Normal s \/ program b = Threw s ->
  (forall x, objs s x = None) /\ forall P, ran_count P (log s) = made_count P (log s).
Proof.
  intros A E. assert (N := program_automatic _ _ _ _ _ b s A E). split; [exact N|].
  intros P. eapply program_count; [|exact N]. destruct E as [->| ->]; [left|right; left]; reflexivity.
Qed.

(** std::terminate is called only where a function or its move constructor throws. *)
Theorem C54_terminate_partial b s :
  (forall f, move_throws f = false) -> (forall f, call_throws f = false) ->
  program b <> Terminated s.
Proof. intros Hm Hc. exact (run_not_term _ _ _ _ _ (CallFun b) init Hm Hc s). Qed.
End Props.
Print Assumptions C54_on_time_partial.
Print Assumptions C54_once_partial.
Print Assumptions C54_not_twice_partial.
Print Assumptions C54_scope_partial.
Print Assumptions C54_terminate_partial.

(** Before C++17: a function is passed on twice, the scopes are left by an exception, which is
    caught; the other one belongs to a heap object which outlives the block. *)
Definition ex_prog : list (stmt nat) :=
  [ TryCatch [ Make 1 10 [7; 8]; Block [ Move 2 1; New 3 20; NewMove 4 3; Delete 3; ThrowStmt ] ] [];
    Make 5 30 [7]; Delete 4; ReturnStmt; ThrowStmt ].
Definition no_f : nat -> bool := fun _ => false.
Example C54_ex :
  match program false (fun _ => 0) no_f no_f no_f ex_prog with
  | Normal s => log s = [Ran 30; Destroyed 5; Ran 20; Destroyed 4; Destroyed 7; MovedTo 5 7; Made 7 30;
             Destroyed 1; Ran 10; Destroyed 2; Destroyed 3; MovedTo 4 3; Made 3 20; MovedTo 2 1;
             Destroyed 8; MovedTo 1 8; Destroyed 7; MovedTo 8 7; Made 7 10] /\
    objs s 1 = None /\ objs s 2 = None /\ objs s 3 = None /\ objs s 4 = None /\ objs s 5 = None
  | _ => False
  end.
Proof. vm_compute. repeat split. Qed.
(** C++17, left by an exception which nobody catches. *)
Definition ex_prog17 : list (stmt nat) := [ Make 1 10 []; Block [ Make 2 20 []; ThrowStmt ]; Make 3 30 [] ].
Example C54_ex17 :
  match program true (fun _ => 0) no_f no_f no_f ex_prog17 with
  | Threw s => log s = [Ran 10; Destroyed 1; Ran 20; Destroyed 2; Made 2 20; Made 1 10]
  | _ => False
  end.
Proof. vm_compute. reflexivity. Qed.
Example C54_ex_automatic : fold_right (fun c r => automatic c /\ r) True ex_prog17.
Proof. cbn. tauto. Qed.

(** The full claim is false where moving the function into the sentry throws: there is no
    sentry then, and the scope is left without the function having run. *)
Theorem C54_ctor_throws_refuted : forall cxx17 moved move_throws call_throws (f : nat) x b,
  program cxx17 moved (fun g => g =? f) move_throws call_throws (Make x f [] :: b) = Threw init.
Proof. intros. cbn. rewrite Nat.eqb_refl. reflexivity. Qed.
Print Assumptions C54_ctor_throws_refuted.

(** A function which throws ends the program, although its scope is left normally and the
    exception would have been caught; the functions of the scopes around it do not run. *)
Theorem C54_call_throws_refuted :
  forall (F : Type) cxx17 moved ctor_throws move_throws call_throws (f g : F) x y h b,
  x <> y -> ctor_throws f = false -> ctor_throws g = false -> call_throws g = true ->
  exists s, program cxx17 moved ctor_throws move_throws call_throws
              (Make x f [] :: TryCatch [Make y g []] h :: b) = Terminated s /\
    log s = [Ran g; Destroyed y; Made y g; Made x f].
Proof.
  intros F cxx17 moved ct mt ca f g x y h b Hxy Hf Hg Hc. eexists.
  unfold program, init. cbn [run run_list make_sentry enter objs autos log].
  unfold construct at 1. cbn [objs enter]. rewrite Hf. cbn [and_then add_auto set_obj objs autos log enter].
  unfold construct. cbn [objs enter]. rewrite setm_neq by congruence. rewrite Hg.
  cbn [and_then add_auto set_obj objs autos log leave_block].
  unfold leave. cbn [autos destroy_all]. unfold destroy at 1. cbn [objs]. rewrite setm_eq.
  cbn [has_func func]. rewrite orb_true_r, Hc. cbn [and_then leave_block]. split; reflexivity.
Qed.
Print Assumptions C54_call_throws_refuted.
Example C54_call_throws_ex :
  match program true (fun _ => 0) no_f no_f (fun g => g =? 20)
          [ Make 1 10 []; TryCatch [ Make 2 20 [] ] [] ] with
  | Terminated s => ran_count (Nat.eqb 10) (log s) = 0 /\ made_count (Nat.eqb 10) (log s) = 1
  | _ => False
  end.
Proof. vm_compute. split; reflexivity. Qed.
