(** Theorems about generators. *)
From Coq Require Import List Arith Bool Lia.
From Verif Require Import Base GeneratorModel GeneratorSpec GeneratorProofs.
Import ListNotations.

(** * C48 *)

(** Every history of allowed calls gives exactly the results of the specification. At any
    time each frame belongs to exactly one generator; using or destroying one a second time is
    undefined behaviour in the model, so it does not happen, and none is left when the generators are gone.
    Missing: self move assignment and range-for on a finished generator, see below. *)
Theorem C48_histories_partial {St V E} (run : St -> step St V E) (moved : V -> V) (os : list (op St)) (w : world St) (xs : list (out V E)) :
  spec_calls run (fun _ => None) os = Some (w, xs) ->
  exists s, calls run moved os init = Ok xs s /\
    (forall h f, frames s h = Some f -> exists g, gens s g = Some (Some h)) /\
    (forall g g' h, gens s g = Some (Some h) -> gens s g' = Some (Some h) -> g = g') /\
    (forall g h, gens s g = Some (Some h) -> frames s h <> None) /\
    (gone w -> forall h, frames s h = None).
Proof.
  intros SC. destruct (calls_ok run moved os init _ _ _ rel_init SC) as (s & R & Rel).
  exists s. split; [exact R|]. split; [apply (rel_owned _ _ Rel)|]. split; [apply (rel_inj _ _ Rel)|]. split.
  - intros g h H. pose proof (rel_gens _ _ Rel g) as Q. rewrite H in Q. destruct (w g) as [[b|]|]; try contradiction.
    destruct Q as (f & Q & _). congruence.
  - intros G h. destruct (frames s h) as [f|] eqn:F; [|reflexivity].
    destruct (rel_owned _ _ Rel h f F) as (g & H). pose proof (gen_none s w g Rel (G g)). congruence.
Qed.
Print Assumptions C48_histories_partial.

(** A body which counts from its state up to 3 and then throws 77, or returns if it began above. *)
Definition demo_run (st : nat) : step nat nat nat :=
  if st <? 3 then Yielded (10 * st) (S st) else if st =? 3 then Threw 77 else Returned.
Example C48_histories_example :
  let os := [Create 0 1; Next 0; MoveCtor 1 0; HasHandle 0; Next 1; Create 2 5; MoveAssign 2 1; Next 2; Next 2; IsDone 2;
             Destroy 0; Destroy 1; Destroy 2] in
  exists w xs, spec_calls demo_run (fun _ => None) os = Some (w, xs) /\
    xs = [Nothing; Value (Some 10); Nothing; Bool false; Value (Some 20); Nothing; Nothing; Thrown 77; Value None; Bool true;
          Nothing; Nothing; Nothing].
Proof. eexists. eexists. split; [vm_compute; reflexivity|reflexivity]. Qed.

Section Sequences.
Context {St V E : Type}.
Variable run : St -> step St V E.
Lemma spec_app os1 : forall w os2 w1 xs1 w2 xs2, spec_calls run w os1 = Some (w1, xs1) -> spec_calls run w1 os2 = Some (w2, xs2) ->
  spec_calls run w (os1 ++ os2) = Some (w2, xs1 ++ xs2).
Proof.
  induction os1 as [|o os1 IH]; intros w os2 w1 xs1 w2 xs2 A B; cbn [spec_calls app] in *.
  - inversion A; subst. exact B.
  - destruct (spec_call run w o) as [[w' x]|]; [|discriminate]. destruct (spec_calls run w' os1) as [[w'' ys]|] eqn:S1; [|discriminate].
    inversion A; subst. now rewrite (IH _ _ _ _ _ _ S1 B).
Qed.
Lemma spec_nexts g k : forall w, w g = Some (Some (@Finished St)) ->
  exists w', spec_calls run w (repeat (Next g) k) = Some (w', repeat (Value None) k).
Proof.
  induction k as [|k IH]; intros w W; cbn [repeat spec_calls]; [eauto|]. cbn [spec_call]. rewrite W. cbn [advance].
  destruct (IH (setm w g (Some (Some Finished))) (setm_eq _ _ _)) as (w' & ->). eauto.
Qed.
Lemma spec_yields g st l st' : yields run st l st' -> forall w, w g = Some (Some (Running st)) ->
  exists w', spec_calls run w (repeat (Next g) (length l)) = Some (w', map (fun v => Value (Some v)) l) /\
    w' g = Some (Some (Running st')).
Proof.
  induction 1 as [st|st v st1 l st2 H _ IH]; intros w W; cbn [length repeat spec_calls map]; [eauto|]. cbn [spec_call]. rewrite W. cbn [advance]. rewrite H.
  destruct (IH (setm w g (Some (Some (Running st1)))) (setm_eq _ _ _)) as (w' & -> & W'). eauto.
Qed.
Lemma visit_yields st l st' : yields run st l st' -> forall n, length l <= n ->
  match run st' with
  | Returned => visit run n st = (l, None, Finished)
  | Threw e => visit run n st = (l, Some e, Finished)
  | Yielded _ _ => True
  end.
Proof.
  induction 1 as [st|st v st1 l st2 H _ IH]; intros n L.
  - destruct (run st) eqn:R; auto; destruct n; cbn; now rewrite R.
  - cbn [length] in L. destruct n as [|n]; [lia|]. specialize (IH n ltac:(lia)). destruct (run st2); auto; cbn [visit]; now rewrite H, IH.
Qed.
End Sequences.

(** Whatever happened before: next() on a generator which holds the rest [st] of a body
    returns the values the body yields, in order; then throws what the body throws; then, ever
    after, is empty. *)
Theorem C48_next_in_order {St V E} (run : St -> step St V E) (moved : V -> V) (os : list (op St)) (w : world St) (xs : list (out V E))
    (g : nat) (st st' : St) (l : list V) (k : nat) :
  spec_calls run (fun _ => None) os = Some (w, xs) -> w g = Some (Some (Running st)) -> yields run st l st' ->
  (run st' = Returned ->
     exists s, calls run moved (os ++ repeat (Next g) (length l + k)) init
       = Ok (xs ++ map (fun v => Value (Some v)) l ++ repeat (Value None) k) s) /\
  (forall e, run st' = Threw e ->
     exists s, calls run moved (os ++ repeat (Next g) (length l + S k)) init
       = Ok (xs ++ map (fun v => Value (Some v)) l ++ Thrown e :: repeat (Value None) k) s).
Proof.
  intros SC W Y. destruct (spec_yields run g st l st' Y w W) as (w1 & S1 & W1).
  assert (forall m ys w2, spec_calls run w1 (repeat (Next g) m) = Some (w2, ys) ->
    exists s, calls run moved (os ++ repeat (Next g) (length l + m)) init = Ok (xs ++ map (fun v => Value (Some v)) l ++ ys) s) as K.
  { intros m ys w2 S2. rewrite repeat_app.
    pose proof (spec_app run _ _ _ _ _ _ _ SC (spec_app run _ _ _ _ _ _ _ S1 S2)) as S3.
    destruct (calls_ok run moved _ init _ _ _ rel_init S3) as (s & R & _). eauto. }
  split.
  - intros R. destruct k as [|k]; [apply (K 0 [] w1); reflexivity|].
    destruct (spec_nexts run g k (setm w1 g (Some (Some Finished))) (setm_eq _ _ _)) as (w2 & S2).
    apply (K (S k) (repeat (Value None) (S k)) w2). cbn [repeat spec_calls spec_call]. rewrite W1. cbn [advance]. now rewrite R, S2.
  - intros e R. destruct (spec_nexts run g k (setm w1 g (Some (Some Finished))) (setm_eq _ _ _)) as (w2 & S2).
    apply (K (S k) (Thrown e :: repeat (Value None) k) w2). cbn [repeat spec_calls spec_call]. rewrite W1. cbn [advance]. now rewrite R, S2.
Qed.
Print Assumptions C48_next_in_order.
Example C48_next_in_order_example :
  yields demo_run 1 [10; 20] 3 /\ demo_run 3 = Threw 77.
Proof. split; [|reflexivity]. repeat (econstructor; try reflexivity). Qed.

(** A range-for visits the same values, and lets the exception out. *)
Theorem C48_range_for_partial {St V E} (run : St -> step St V E) (moved : V -> V) (os : list (op St)) (w : world St) (xs : list (out V E))
    (g : nat) (st st' : St) (l : list V) (n : nat) :
  spec_calls run (fun _ => None) os = Some (w, xs) -> w g = Some (Some (Running st)) -> yields run st l st' -> length l <= n ->
  (run st' = Returned -> exists s, calls run moved (os ++ [RangeFor g n]) init = Ok (xs ++ [Visited l None]) s) /\
  (forall e, run st' = Threw e -> exists s, calls run moved (os ++ [RangeFor g n]) init = Ok (xs ++ [Visited l (Some e)]) s).
Proof.
  intros SC W Y L. pose proof (visit_yields run st l st' Y n L) as VY.
  assert (forall e, visit run n st = (l, e, Finished) -> exists s, calls run moved (os ++ [RangeFor g n]) init = Ok (xs ++ [Visited l e]) s) as K.
  { intros e H. assert (spec_calls run w [RangeFor g n] = Some (setm w g (Some (Some Finished)), [Visited l e])) as S2.
    { cbn [spec_calls spec_call]. now rewrite W, H. }
    destruct (calls_ok run moved _ init _ _ _ rel_init (spec_app run _ _ _ _ _ _ _ SC S2)) as (s & R & _). eauto. }
  split.
  - intros R. rewrite R in VY. now apply K.
  - intros e R. rewrite R in VY. now apply K.
Qed.
Print Assumptions C48_range_for_partial.
Example C48_range_for_example :
  exists s, calls demo_run (fun x => x) [Create 0 0; Next 0; RangeFor 0 9] init
    = Ok [Nothing; Value (Some 0); Visited [10; 20] (Some 77)] s.
Proof. eexists. vm_compute. reflexivity. Qed.

(** A generator which owns a frame and is move assigned to itself is left with the handle of
    the destroyed frame: its destructor, next and done are undefined behaviour. *)
Theorem C48_self_move_refuted {St V E} (run : St -> step St V E) (moved : V -> V) (os : list (op St)) (w : world St) (xs : list (out V E))
    (g : nat) (b : rest St) (o : op St) :
  spec_calls run (fun _ => None) os = Some (w, xs) -> w g = Some (Some b) -> In o [Destroy g; Next g; IsDone g] ->
  exists s s', calls run moved os init = Ok xs s /\ call run moved (MoveAssign g g) s = Ok Nothing s' /\
    gens s' g = gens s g /\ call run moved o s' = UB.
Proof.
  intros SC W I. destruct (calls_ok run moved os init _ _ _ rel_init SC) as (s & R & Rel).
  destruct (gen_some _ _ _ _ Rel W) as (h & f & G & F & FB).
  exists s. eexists. split; [exact R|]. split.
  - cbn [call]. unfold bind at 1, move_assign, bind at 1, get_gen at 1. rewrite G.
    unfold bind at 1, destroy_handle, destroy_frame, bind at 1, get_frame. rewrite F.
    unfold bind, get_gen, put_gen. cbn [gens frames fresh]. rewrite G. reflexivity.
  - split; [cbn [gens]; rewrite setm_eq; congruence|].
    destruct I as [<-|[<-|[<-|[]]]]; cbn [call].
    + unfold bind at 1, destroy, bind at 1, get_gen. cbn [gens]. rewrite setm_eq.
      unfold destroy_handle, destroy_frame, bind, get_frame. cbn [frames]. now rewrite setm_eq.
    + unfold next, bind at 1, done, bind at 1, handle, bind at 1, get_gen. cbn [gens]. rewrite setm_eq.
      unfold ret, bind, get_frame. cbn [frames]. now rewrite setm_eq.
    + unfold bind at 1, done, bind at 1, handle, bind at 1, get_gen. cbn [gens]. rewrite setm_eq.
      unfold ret, bind, get_frame. cbn [frames]. now rewrite setm_eq.
Qed.
Print Assumptions C48_self_move_refuted.
Example C48_self_move_example :
  calls demo_run (fun x => x) [Create 0 0; MoveAssign 0 0; Destroy 0] init = UB.
Proof. vm_compute. reflexivity. Qed.

(** A range-for over a finished generator resumes it, instead of visiting nothing. *)
Theorem C48_finished_range_refuted {St V E} (run : St -> step St V E) (moved : V -> V) (os : list (op St)) (w : world St) (xs : list (out V E))
    (g n : nat) :
  spec_calls run (fun _ => None) os = Some (w, xs) -> w g = Some (Some Finished) ->
  calls run moved (os ++ [RangeFor g n]) init = UB.
Proof.
  intros SC W. destruct (calls_ok run moved os init _ _ _ rel_init SC) as (s & R & Rel).
  destruct (gen_some _ _ _ _ Rel W) as (h & f & G & F & FB). cbn in FB.
  assert (call run moved (RangeFor g n) s = UB) as U.
  { cbn [call]. unfold range_for, bind at 1, handle, bind at 1, get_gen. rewrite G. unfold ret.
    unfold bind at 1, safe_resume, bind at 1, get_frame. rewrite F.
    unfold bind, put_frame, resume, bind, get_frame. cbn [frames]. rewrite setm_eq. cbn [finished]. rewrite FB. reflexivity. }
  assert (forall os1 s0 ys, calls run moved os1 s0 = Ok ys s -> calls run moved (os1 ++ [RangeFor g n]) s0 = UB) as K.
  { induction os1 as [|o os1 IH]; intros s0 ys H; cbn [calls app] in *.
    - inversion H; subst. unfold bind. now rewrite U.
    - unfold bind in *. destruct (call run moved o s0) as [x s1| | |]; try discriminate.
      destruct (calls run moved os1 s1) as [zs s2| | |] eqn:C1; try discriminate. inversion H; subst. now rewrite (IH _ _ C1). }
  now apply (K _ _ _ R).
Qed.
Print Assumptions C48_finished_range_refuted.
Example C48_finished_range_example :
  calls demo_run (fun x => x) [Create 0 5; Next 0; RangeFor 0 4] init = UB.
Proof. vm_compute. reflexivity. Qed.
