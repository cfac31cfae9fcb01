(** C120: bodies of generators may use any generator, also the one they are run by. Other ones they may; what they may do to their own is only to ask
    whether it has a handle. *)
From Coq Require Import List Arith Bool.
From Verif Require Import Base GenReentModel GenReentSpec GenReentProofs.
Import ListNotations.

(** Every body, every history: when no call, of whoever, touches a generator whose body runs, every answer is the one
    of the generators of the specification, in which each generator is the rest of its own body; the store has
    exactly these generators afterwards. More steps change nothing; and when all objects are gone no frame is left.
    Missing: histories in which bodies use their own generators, see the refutations below. *)
Theorem C120_history_partial : forall (St V E : Type) (run : St -> act St V E) (moved : V -> V) fuel os xs a,
  acalls run fuel os ainit = Some (xs, a) ->
  forall more, fuel <= more ->
  exists s, calls run moved more os init = Ok xs s /\ has_gens s a /\
    ((forall g, a g = None) -> forall h, frames s h = None).
Proof.
  intros St V E run moved fuel os xs a H more L.
  destruct (calls_ok run moved more os ainit xs a init (acalls_more run fuel more os L _ _ H) R_init) as (s & C & R).
  exists s. split; [exact C|]. split; [exact R|]. intros N h. destruct (frames s h) as [f|] eqn:F; [|reflexivity].
  pose proof R as (_ & _ & _ & O). destruct (O h f F) as (g & G). rewrite (at_none _ _ _ R (N g)) in G. discriminate G.
Qed.
Print Assumptions C120_history_partial.

(** One call in any state. A generator whose body runs keeps its handle whatever the call, and the bodies it resumes,
    do. *)
Theorem C120_call_partial : forall (St V E : Type) (run : St -> act St V E) (moved : V -> V) fuel o x s a a',
  has_gens s a -> acall run fuel o a = Some (x, a') ->
  exists s', call run moved fuel o s = Ok x s' /\ has_gens s' a' /\
    forall g, a g = Some Busy -> a' g = Some Busy /\ gens s' g = gens s g.
Proof.
  intros St V E run moved fuel o x s a a' R H.
  destruct (call_ok moved (go run moved fuel) (ago run fuel) o a x a' s (ago_stays run fuel) (go_is_ok run moved fuel) H R)
    as (s' & C & R' & K).
  exists s'. split; [exact C|]. split; [exact R'|]. intros g B. split; [|now apply K].
  exact (acall_stays _ _ _ _ _ (ago_stays run fuel) H g B).
Qed.
Print Assumptions C120_call_partial.

(** While the body of a generator runs, in whatever state, next(), done(), reset(), the destructor and assignments to it
    are undefined. *)
Theorem C120_own_refuted : forall (St V E : Type) (run : St -> act St V E) (moved : V -> V) fuel s a g o,
  has_gens s a -> a g = Some Busy ->
  o = Next g \/ o = IsDone g \/ o = Clear g \/ o = Destroy g \/ (exists from, o = MoveAssign g from) ->
  call run moved fuel o s = UB.
Proof. intros St V E run moved fuel s a g o R B H. exact (busy_ub moved (go run moved fuel) s a g o R B H). Qed.
Print Assumptions C120_own_refuted.

(** Every call which the specification calls bad is undefined, in every state and in every history; also when a body
    comes to it after any calls of its own, at any depth. *)
Theorem C120_undefined : forall (St V E : Type) (run : St -> act St V E) (moved : V -> V) fuel o a s,
  has_gens s a -> bad run fuel o a = true -> call run moved fuel o s = UB.
Proof.
  intros St V E run moved fuel o a s R B.
  exact (call_bad moved (go run moved fuel) (bad_body run fuel) o a s (go_bad run moved fuel) B R).
Qed.
Print Assumptions C120_undefined.
Theorem C120_undefined_history : forall (St V E : Type) (run : St -> act St V E) (moved : V -> V) fuel pre o post xs a,
  acalls run fuel pre ainit = Some (xs, a) -> bad run fuel o a = true ->
  calls run moved fuel (pre ++ o :: post) init = UB.
Proof.
  intros St V E run moved fuel pre o post xs a H B.
  destruct (calls_ok run moved fuel pre ainit xs a init H R_init) as (s & C & R).
  exact (calls_app run moved fuel pre o init xs s C (C120_undefined St V E run moved fuel o a s R B) post).
Qed.
Print Assumptions C120_undefined_history.

(** A body which moves its own generator to a new one and yields: the next() which resumed it is undefined. *)
Theorem C120_moved_refuted : forall (St V E : Type) (run : St -> act St V E) (moved : V -> V) fuel s a g g' st k v st',
  has_gens s a -> a g = Some (Rest st) -> a g' = None ->
  run st = Calls (MoveCtor g' g) k -> run (k Nothing) = Yields v st' ->
  call run moved (2 + fuel) (Next g) s = UB.
Proof.
  intros St V E run moved fuel s a g g' st k v st' R A A' C Y. exact (moved_away_ub run moved s a g g' st k v st' fuel R A A' C Y).
Qed.
Print Assumptions C120_moved_refuted.

(** When it puts another generator in its place before it yields, next() answers what is in the promise of that one,
    whatever was yielded. *)
Theorem C120_replaced_refuted : forall (St V E : Type) (run : St -> act St V E) (moved : V -> V) fuel s a g g' o st k k' v st' ho fo,
  has_gens s a -> a g = Some (Rest st) -> a g' = None ->
  o <> g -> gens s o = Some (Some ho) -> frames s ho = Some fo ->
  run st = Calls (MoveCtor g' g) k -> run (k Nothing) = Calls (MoveAssign g o) k' -> run (k' Nothing) = Yields v st' ->
  exists s', call run moved (3 + fuel) (Next g) s = Ok (Value (m_val fo)) s' /\ gens s' g = Some (Some ho).
Proof.
  intros St V E run moved fuel s a g g' o st k k' v st' ho fo R A A' N G F C C' Y.
  exact (replaced run moved s a g g' o st k k' v st' ho fo fuel R A A' G F N C C' Y).
Qed.
Print Assumptions C120_replaced_refuted.

(** range-for over a generator which has not ended, in any state: what it meets is what next() would give, value by
    value until the end or the exception, and it leaves the same generators behind. *)
Theorem C120_range_partial : forall (St V E : Type) (run : St -> act St V E) (moved : V -> V) fuel n g st s a vs e a',
  has_gens s a -> a g = Some (Rest st) -> draw run fuel n g a = Some (vs, e, a') ->
  exists s', range_for run moved fuel n g s = Ok (vs, e) s' /\ has_gens s' a'.
Proof. intros St V E run moved fuel n g st s a vs e a' R A D. exact (range_ok run moved fuel n g s a st vs e a' R A D). Qed.
Print Assumptions C120_range_partial.

(** The body moves its own generator to a new one and yields. An iterator, which has a handle of its own, goes on with
    the coroutine, wherever its generator is now ... *)
Theorem C120_iterator_follows : forall (St V E : Type) (run : St -> act St V E) (moved : V -> V) fuel s a g g' h st k v st',
  has_gens s a -> a g = Some (Rest st) -> a g' = None -> gens s g = Some (Some h) ->
  run st = Calls (MoveCtor g' g) k -> run (k Nothing) = Yields v st' ->
  exists s', advance run moved (2 + fuel) (Some h) s = Ok None s' /\
    has_gens s' (setm (setm a g (Some Empty)) g' (Some (Rest st'))) /\ gens s' g' = Some (Some h) /\
    at_end (Some h) s' = Ok false s' /\ deref (Some h) s' = Ok v s'.
Proof.
  intros St V E run moved fuel s a g g' h st k v st' R A A' G C Y.
  exact (moved_away_advance run moved s a g g' h st k v st' fuel R A A' G C Y).
Qed.
Print Assumptions C120_iterator_follows.

(** ... but a range-for which starts with this is undefined. *)
Theorem C120_range_moved_refuted : forall (St V E : Type) (run : St -> act St V E) (moved : V -> V) fuel n s a g g' st k v st',
  has_gens s a -> a g = Some (Rest st) -> a g' = None ->
  run st = Calls (MoveCtor g' g) k -> run (k Nothing) = Yields v st' ->
  range_for run moved (2 + fuel) (1 + n) g s = UB.
Proof.
  intros St V E run moved fuel n s a g g' st k v st' R A A' C Y.
  exact (moved_away_begin run moved s a g g' st k v st' fuel R A A' C Y n).
Qed.
Print Assumptions C120_range_moved_refuted.

(** range-for over a generator whose body runs, or which ended, is undefined, and so is ++ of an iterator then. *)
Theorem C120_range_refuted : forall (St V E : Type) (run : St -> act St V E) (moved : V -> V) fuel n s a g h x,
  has_gens s a -> a g = Some x -> x = Busy \/ x = Done -> gens s g = Some (Some h) ->
  range_for run moved fuel n g s = UB /\ advance run moved fuel (Some h) s = UB.
Proof.
  intros St V E run moved fuel n s a g h x R A X G. pose proof (resume_bad (go run moved fuel) s a g h x R A X G) as Q.
  split; [|exact Q]. unfold range_for, begin, handle, bind, get_gen. rewrite G. unfold ret. now rewrite Q.
Qed.
Print Assumptions C120_range_refuted.

(** * Examples *)

(** Bodies written as programs. *)
Inductive prog : Type :=
| PYield (v : nat) (p : prog)
| PReturn
| PThrow (e : nat)
| PCall (o : op prog) (k : out nat nat -> prog).
Definition prun (p : prog) : act prog nat nat :=
  match p with
  | PYield v p' => Yields v p'
  | PReturn => Returns
  | PThrow e => Throws e
  | PCall o k => Calls o k
  end.
Definition leaf : prog := PYield 10 (PYield 20 (PThrow 7)).
(** Yields what generator [g] gives, one more each, and what it throws in the end. *)
Fixpoint all_of (g n : nat) : prog :=
  match n with
  | 0 => PReturn
  | S n' =>
      PCall (Next g) (fun a =>
        match a with
        | Value (Some v) => PYield (S v) (all_of g n')
        | Thrown e => PCall (Destroy g) (fun _ => PYield (100 + e) PReturn)
        | _ => PReturn
        end)
  end.
Definition node : prog := PCall (HasHandle 0) (fun _ => PCall (Create 1 leaf) (fun _ => all_of 1 5)).

(** The body of generator 0 makes generator 1, the user takes a value of it in between, the body meets its exception,
    destroys it and goes on. *)
Example C120_history_meets : exists a,
  acalls prun 10 [Create 0 node; Next 0; IsDone 0; Next 1; Next 0; Next 0; IsDone 0; Destroy 0] ainit =
    Some ([Nothing; Value (Some 11); Bool false; Value (Some 20); Value (Some 107); Value None; Bool true; Nothing], a) /\
  forall g, a g = None.
Proof.
  eexists. split; [vm_compute; reflexivity|]. intros [|[|g]]; reflexivity.
Qed.

(** A state in which the body of 0 runs, and in which it asks 2 for a value. *)
Definition busy_frame : frame (St := prog) (V := nat) (E := nat) := mkFrame PReturn Running None None.
Definition leaf_frame : frame (St := prog) (V := nat) (E := nat) := mkFrame leaf Suspended (Some 5) None.
Definition some_store (f : frame) : store (St := prog) (V := nat) (E := nat) :=
  mkStore (setm (setm (fun _ => None) 0 (Some f)) 1 (Some leaf_frame)) 2
          (setm (setm (fun _ => None) 0 (Some (Some 0))) 2 (Some (Some 1))).
Definition some_gens (x : agen prog) : agens prog := setm (setm (fun _ => None) 0 (Some x)) 2 (Some (Rest leaf)).
Lemma some_store_ok f x : x <> Empty -> fits x f -> has_gens (some_store f) (some_gens x).
Proof.
  intros N X. repeat apply conj.
  - intros [|[|[|g]]]; cbn; auto.
    + destruct x; [congruence|..]; exists 0, f; auto.
    + exists 1, leaf_frame. cbn. auto.
  - intros [|[|[|g]]] [|[|[|g']]] h; cbn; congruence.
  - intros [|[|h]]; cbn; intros L; [inversion L|inversion L; subst; match goal with Q : _ <= 0 |- _ => inversion Q end|reflexivity].
  - intros [|[|h]] f'; cbn; intros Q; [exists 0|exists 2|discriminate]; reflexivity.
Qed.
Example C120_call_meets :
  has_gens (some_store busy_frame) (some_gens Busy) /\
  exists a', acall prun 3 (Next 2) (some_gens Busy) = Some (Value (Some 10), a').
Proof.
  split; [apply some_store_ok; [discriminate|cbn; auto]|]. eexists. vm_compute. reflexivity.
Qed.
(** A body of 0 which asks its own generator for a value; from the first call on. *)
Example C120_own_meets :
  has_gens (some_store busy_frame) (some_gens Busy) /\ some_gens Busy 0 = Some Busy /\
  calls prun S 9 [Create 0 (PCall (Next 0) (fun _ => PReturn)); Next 0] init = UB.
Proof.
  split; [apply some_store_ok; [discriminate|cbn; auto]|]. split; [reflexivity|vm_compute; reflexivity].
Qed.
Definition mover : prog := PCall (MoveCtor 1 0) (fun _ => PYield 3 PReturn).
Example C120_moved_meets :
  has_gens (some_store (mkFrame mover Suspended None None)) (some_gens (Rest mover)) /\
  calls prun S 9 [Create 0 mover; Next 0] init = UB.
Proof.
  split; [apply some_store_ok; [discriminate|cbn; auto]|vm_compute; reflexivity].
Qed.
Definition swapper : prog := PCall (MoveCtor 1 0) (fun _ => PCall (MoveAssign 0 2) (fun _ => PYield 3 PReturn)).
(** It yields 3; next() answers a moved-from value of the other generator, which the user had got before. *)
Example C120_replaced_meets :
  has_gens (some_store (mkFrame swapper Suspended None None)) (some_gens (Rest swapper)) /\
  exists s, calls prun (fun _ => 0) 9 [Create 0 swapper; Create 2 leaf; Next 2; Next 0] init
            = Ok [Nothing; Nothing; Value (Some 10); Value (Some 0)] s.
Proof.
  split; [apply some_store_ok; [discriminate|cbn; auto]|]. eexists. vm_compute. reflexivity.
Qed.

(** The generator 0 makes 1 and passes its values on, until the exception. *)
Example C120_range_meets :
  has_gens (some_store (mkFrame node Suspended None None)) (some_gens (Rest node)) /\
  exists a', draw prun 10 10 0 (some_gens (Rest node)) = Some ([11; 21; 107], None, a') /\
  exists s', range_for prun S 10 10 0 (some_store (mkFrame node Suspended None None)) = Ok ([11; 21; 107], None) s'.
Proof.
  split; [apply some_store_ok; [discriminate|cbn; auto]|]. eexists. split; [vm_compute; reflexivity|].
  eexists. vm_compute. reflexivity.
Qed.
Example C120_iterator_follows_meets :
  has_gens (some_store (mkFrame mover Suspended None None)) (some_gens (Rest mover)) /\
  gens (some_store (mkFrame mover Suspended None None)) 0 = Some (Some 0) /\
  prun mover = Calls (MoveCtor 1 0) (fun _ => PYield 3 PReturn).
Proof.
  split; [apply some_store_ok; [discriminate|cbn; auto]|]. split; reflexivity.
Qed.
Example C120_range_moved_meets :
  has_gens (some_store (mkFrame mover Suspended None None)) (some_gens (Rest mover)) /\
  range_for prun S 5 5 0 (some_store (mkFrame mover Suspended None None)) = UB.
Proof.
  split; [apply some_store_ok; [discriminate|cbn; auto]|vm_compute; reflexivity].
Qed.
(** The body of 0 asks 1 for a value; the body of 1 yields once and then asks 0. *)
Definition ask (g : nat) (p : prog) : prog := PCall (Next g) (fun _ => p).
Definition circle : list (op prog) :=
  [Create 0 (ask 1 (PYield 1 (ask 1 (PYield 2 PReturn)))); Create 1 (PYield 5 (ask 0 PReturn)); Next 0].
Example C120_undefined_meets :
  has_gens (some_store (mkFrame (ask 0 PReturn) Suspended None None)) (some_gens (Rest (ask 0 PReturn))) /\
  bad prun 3 (Next 0) (some_gens (Rest (ask 0 PReturn))) = true.
Proof. split; [apply some_store_ok; [discriminate|cbn; auto]|reflexivity]. Qed.
Example C120_undefined_history_meets : exists a,
  acalls prun 9 circle ainit = Some ([Nothing; Nothing; Value (Some 1)], a) /\ bad prun 9 (Next 0) a = true.
Proof. eexists. split; vm_compute; reflexivity. Qed.
Example C120_range_refuted_meets :
  has_gens (some_store busy_frame) (some_gens Busy) /\
  has_gens (some_store (mkFrame PReturn Finished None (Some 3))) (some_gens Done) /\
  gens (some_store busy_frame) 0 = Some (Some 0).
Proof.
  split; [apply some_store_ok; [discriminate|cbn; auto]|]. split; [apply some_store_ok; [discriminate|reflexivity]|reflexivity].
Qed.
