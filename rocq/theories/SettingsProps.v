(** The error handling settings of static_vector, small_vector and flat_map::at. *)
From Coq Require Import List Arith NArith ZArith Bool Lia.
From Verif Require Import Base SeqSpec VecCommon SettingsModel SettingsSpec SettingsProofs
  StaticVectorModel StaticVectorSpec SmallVectorModel SmallVectorSpec FlatModel FlatSpec.
Import ListNotations.

(** ** C82: the settings change only what happens on an error *)

(** Whatever the setting, with or without assertions: a history of calls in which no call is
    an error gives the answers and the contents of the default setting, and no assertion
    fails. *)
Theorem C82_static_vector_histories :
  forall (V : Type) (moved : V -> V) (dflt : V) (Capacity : nat),
  (N.of_nat Capacity < two63)%N ->
  forall (cfg : config) (n : nat) (os : list (sysop V)),
  sys_along dflt (Some Capacity) (fun _ => []) call_ok (repeat [] n) os ->
  no_errors (snd (sys_spec_run dflt (Some Capacity) (fun _ => []) (repeat [] n) os)) ->
  exists st,
    e_run_calls (Static.sys_call moved dflt Capacity cfg) (repeat (init_sv Capacity) n) os =
      Told st (snd (sys_spec_run dflt (Some Capacity) (fun _ => []) (repeat [] n) os)) /\
    Forall2 (represents Capacity) st
      (fst (sys_spec_run dflt (Some Capacity) (fun _ => []) (repeat [] n) os)).
Proof. exact @StaticP.static_history. Qed.
Print Assumptions C82_static_vector_histories.

Definition c82_history : list (sysop nat) :=
  [SeqSpec.On 0 (InsertRange 0 [1; 2; 3]); SeqSpec.On 1 (PushBack 7); SeqSpec.SwapOp 0 1;
   SeqSpec.On 1 (Erase 0); SeqSpec.CopyAssign 0 1; SeqSpec.On 0 PopBack].
Example C82_static_vector_histories_case :
  sys_along 0 (Some 3) (fun _ => []) call_ok (repeat [] 2) c82_history /\
  no_errors (snd (sys_spec_run 0 (Some 3) (fun _ => []) (repeat [] 2) c82_history)) /\
  fst (sys_spec_run 0 (Some 3) (fun _ => []) (repeat [] 2) c82_history) = [[2]; [2; 3]].
Proof.
  split; [|split; [|reflexivity]].
  - cbn. repeat (split; [first [exact Logic.I | eexists; split; [reflexivity|]; cbn; unfold two64; repeat split; lia | split; [lia|eexists; reflexivity] | lia | idtac]|]); auto.
    all: try (eexists; split; [reflexivity|]; repeat split; cbn; unfold two64; lia).
    all: try lia.
  - cbn. unfold no_errors. cbn. intros H. decompose [or] H; try discriminate; auto.
Qed.

(** One call, also one in which a constructor of the elements throws: where the default
    setting does not report an error, every setting does the same. *)
Theorem C82_static_vector_call :
  forall (V : Type) (moved : V -> V) (dflt : V) (Capacity : nat),
  (N.of_nat Capacity < two63)%N ->
  forall (cfg : config) (s : @sv V) (xs : list V) (o : vop V),
  represents Capacity s xs -> in_range xs o ->
  (forall s', StaticVectorModel.call moved dflt Capacity o s <> Throw OutOfRange s') ->
  Static.call moved dflt Capacity cfg o s = Runs (StaticVectorModel.call moved dflt Capacity o s).
Proof.
  intros V moved dflt Capacity Hc cfg s xs o Hr Hi. apply StaticP.call_agree; [exact Hc|].
  eapply StaticP.inside_of; eauto.
Qed.
Print Assumptions C82_static_vector_call.

Example C82_static_vector_call_case :
  let s := mkSv [Live 1; Live 2; Raw; Raw] 2 (Some 1) in
  represents 4 s [1; 2] /\
  StaticVectorModel.call (fun v => v) 0 4 (AssignN 3 9) s = Throw ElemThrow (mkSv [Live 9; Raw; Raw; Raw] 1 None).
Proof.
  cbv zeta. split; [|reflexivity]. repeat split; cbn; try lia.
  intros [|[|[|[|i]]]] Hi; try reflexivity. lia.
Qed.

(** A call which is an error: reported by an exception, stopped by an assertion, or — with
    the checks off — undefined behaviour.  When it is reported the vector holds what the
    specification of the default setting says. *)
Theorem C82_static_vector_errors :
  forall (V : Type) (moved : V -> V) (dflt : V) (Capacity : nat),
  (N.of_nat Capacity < two63)%N ->
  forall (cfg : config) (s : @sv V) (xs : list V) (o : vop V),
  represents Capacity s xs -> StaticVectorModel.fuse s = None -> call_ok xs o ->
  snd (spec_step dflt (Some Capacity) xs o) = RThrow OutOfRange ->
  match reaction_of cfg with
  | Reports => exists s', represents Capacity s' (fst (spec_step dflt (Some Capacity) xs o)) /\
                 Static.call moved dflt Capacity cfg o s = Runs (Throw OutOfRange s')
  | Stops => Static.call moved dflt Capacity cfg o s = Aborts
  | Ignores => Static.call moved dflt Capacity cfg o s = Runs UB
  end.
Proof.
  intros V moved dflt Capacity Hc cfg s xs o Hr Hf Hok He.
  destruct (StaticP.static_error moved dflt Capacity Hc cfg s xs o Hr Hf Hok He) as (s' & Hs & E).
  rewrite E. unfold react. destruct (reaction_of cfg); eauto.
Qed.
Print Assumptions C82_static_vector_errors.

Example C82_static_vector_errors_case :
  represents 2 (mkSv [Live 1; Live 2] 2 None) [1; 2] /\ call_ok [1; 2] (Insert 1 9) /\
  snd (spec_step 0 (Some 2) [1; 2] (Insert 1 9)) = RThrow OutOfRange.
Proof.
  split; [|split; [|reflexivity]].
  - repeat split; cbn; try lia. intros [|[|i]] Hi; try reflexivity. lia.
  - repeat split; cbn; lia.
Qed.

(** at, operator[], front and back do not throw under any setting: they give the element or,
    without it, fail an assertion; with assertions off they are undefined. *)
Theorem C82_static_vector_access :
  forall (V : Type) (Capacity : nat), (N.of_nat Capacity < two63)%N ->
  forall (cfg : config) (s : @sv V) (xs : list V), represents Capacity s xs ->
  (forall i, Static.at_ cfg i s =
     match nth_error xs (N.to_nat i) with
     | Some v => Runs (Ok v s)
     | None => if access_stops cfg then Aborts else Runs UB
     end) /\
  (forall x ys, xs = x :: ys -> Static.front cfg s = Runs (Ok x s)) /\
  (forall x ys, xs = ys ++ [x] -> Static.back cfg s = Runs (Ok x s)) /\
  (xs = [] -> let lost := if access_stops cfg then Aborts else Runs UB in
              Static.front cfg s = lost /\ Static.back cfg s = lost).
Proof. exact @StaticP.access_fact. Qed.
Print Assumptions C82_static_vector_access.

Example C82_static_vector_access_case :
  represents 2 (mkSv [Live 5; Raw] 1 None) [5] /\
  Static.at_ (mkConfig HThrow true true) 1%N (mkSv [Live 5; Raw] 1 None) = Aborts /\
  Static.at_ (mkConfig HThrow false true) 1%N (mkSv [Live 5; Raw] 1 None) = Runs UB.
Proof.
  split; [|split; reflexivity].
  repeat split; cbn; try lia. intros [|[|i]] Hi; try reflexivity. lia.
Qed.

(** The same for small_vector; here the checks on its own state (478, 479, 858) are among
    the assertions which do not fail. *)
Theorem C82_small_vector_histories :
  forall (V : Type) (moved : V -> V) (dflt : V) (SC RB : nat) (maxn : N),
  0 < SC -> RB <= SC + 1 -> (maxn < two63)%N ->
  forall (cfg : config) (n : nat) (os : list (@smallsys V)),
  small_sys_along dflt maxn (repeat [] n) os ->
  no_errors (snd (small_sys_run dflt (repeat [] n) os)) ->
  exists st,
    e_run_calls (Small.sys_call moved dflt SC RB maxn cfg) (repeat (init_vec SC) n) os =
      Told st (snd (small_sys_run dflt (repeat [] n) os)) /\
    Forall2 (SmallVectorSpec.holds SC) st (fst (small_sys_run dflt (repeat [] n) os)).
Proof. exact @SmallP.small_history. Qed.
Print Assumptions C82_small_vector_histories.

Definition c82_small_history : list (@smallsys nat) :=
  [SmallVectorModel.On 0 (Seq (InsertRange 0 [1; 2; 3])); SmallVectorModel.On 0 (Reserve 9);
   SmallVectorModel.On 0 (Seq PopBack); SmallVectorModel.On 0 (Seq (Erase 0));
   SmallVectorModel.CopyAssign 1 0].
Example C82_small_vector_histories_case :
  small_sys_along 0 1000 (repeat [] 2) c82_small_history /\
  no_errors (snd (small_sys_run 0 (repeat [] 2) c82_small_history)) /\
  fst (small_sys_run 0 (repeat [] 2) c82_small_history) = [[2]; [2]].
Proof.
  split; [|split; [|reflexivity]].
  - cbn. unfold room.
    repeat (first [split; [eexists; split; [reflexivity|]; cbn; unfold room; cbn; repeat split; try lia; discriminate|]
                  |split; [split; [lia|eexists; split; [reflexivity|]; cbn; unfold room; cbn; lia]|]]); exact Logic.I.
  - cbn. unfold no_errors. cbn. intros H. decompose [or] H; try discriminate; auto.
Qed.

(** One call, for every outcome which is not a reported error, exceptions of the elements and
    of the allocator included. *)
Theorem C82_small_vector_call :
  forall (V : Type) (moved : V -> V) (dflt : V) (SC RB : nat) (maxn : N),
  0 < SC -> RB <= SC + 1 -> (maxn < two63)%N ->
  forall (cfg : config) (s : @vec V) (xs : list V) (o : @smallop V),
  SmallVectorSpec.holds SC s xs ->
  (forall s', SmallVectorModel.call moved dflt SC RB maxn o s <> Throw OutOfRange s') ->
  Small.call moved dflt SC RB maxn cfg o s = Runs (SmallVectorModel.call moved dflt SC RB maxn o s).
Proof.
  intros V moved dflt SC RB maxn H1 H2 H3 cfg s xs o H. apply SmallP.call_agree; auto.
  eapply SmallP.holds_placed; eauto.
Qed.
Print Assumptions C82_small_vector_call.

Example C82_small_vector_call_case :
  SmallVectorSpec.holds 2 (init_vec 2) (@nil nat) /\
  SmallVectorModel.call (fun v => v) 0 2 1 5 (Reserve 9) (init_vec 2) = Throw BadAlloc (init_vec 2).
Proof. split; [|reflexivity]. repeat split; cbn; try lia; try congruence. Qed.

(** Errors: reported with the vector unchanged, or stopped.  (With the checks off the model
    says nothing.) *)
Theorem C82_small_vector_errors :
  forall (V : Type) (moved : V -> V) (dflt : V) (SC RB : nat) (maxn : N),
  0 < SC -> RB <= SC + 1 -> (maxn < two63)%N ->
  forall (cfg : config) (s : @vec V) (xs : list V) (o : @smallop V),
  SmallVectorSpec.holds SC s xs ->
  snd (small_step dflt xs o) = RThrow OutOfRange ->
  fst (small_step dflt xs o) = xs /\
  (reaction_of cfg = Reports -> Small.call moved dflt SC RB maxn cfg o s = Runs (Throw OutOfRange s)) /\
  (reaction_of cfg = Stops -> Small.call moved dflt SC RB maxn cfg o s = Aborts).
Proof.
  intros V moved dflt SC RB maxn H1 H2 H3 cfg s xs o H He.
  destruct (SmallP.small_error moved dflt SC RB maxn H1 H2 H3 cfg s xs o H He) as (E & other & E1).
  split; [exact E|]. rewrite E1. unfold react. split; now intros ->.
Qed.
Print Assumptions C82_small_vector_errors.

Example C82_small_vector_errors_case :
  SmallVectorSpec.holds 2 (init_vec 2) (@nil nat) /\
  snd (small_step 0 [] (Seq (Insert 1 9))) = RThrow OutOfRange /\
  snd (small_step 0 [] (Seq PopBack)) = RThrow OutOfRange.
Proof. split; [|split; reflexivity]. repeat split; cbn; try lia; try congruence. Qed.

Theorem C82_small_vector_access :
  forall (V : Type) (SC : nat) (cfg : config) (s : @vec V) (xs : list V) (i : nat), SmallVectorSpec.holds SC s xs ->
  Small.at_ cfg i s =
  match nth_error xs i with
  | Some v => Runs (Ok v s)
  | None => if access_stops cfg then Aborts else Runs UB
  end.
Proof. intros V SC cfg s xs i. apply SmallP.small_at. Qed.
Print Assumptions C82_small_vector_access.

(** flat_map::at: a key which is present is found under both settings.  One which is not:
    the default setting throws; ITLIB_FLAT_MAP_NO_THROW fails an assertion or, with
    assertions off, answers with the value of the next greater key, if there is one. *)
Theorem C82_flat_map_at :
  forall (K T Q C CT : Type) (lt : C -> K -> K -> bool) (kq : C -> K -> Q -> bool)
         (qk : C -> Q -> K -> bool) (cont : container (K * T) CT) (cap : option nat)
         (rep : CT -> list (K * T) -> Prop),
  conforms cont cap rep ->
  forall (conv : Q -> K) (c : C), strict_weak_order (lt c) ->
  (forall k q, kq c k q = lt c k (conv q)) -> (forall k q, qk c q k = lt c (conv q) k) ->
  forall (no_throw asserts_ : bool) t l m q,
  rep t l -> enumerates fst lt c l m ->
  match m (conv q) with
  | Some e => map_at kq qk cont no_throw asserts_ q (mkFlat c t) = Runs (Ok (snd e) (mkFlat c t))
  | None =>
      if no_throw then
        if asserts_ then map_at kq qk cont no_throw asserts_ q (mkFlat c t) = Aborts
        else forall p e, border (fun e => lt c (fst e) (conv q) = true) l p -> nth_error l p = Some e ->
             map_at kq qk cont no_throw asserts_ q (mkFlat c t) = Runs (Ok (snd e) (mkFlat c t))
      else map_at kq qk cont no_throw asserts_ q (mkFlat c t) = Runs (Throw OutOfRange (mkFlat c t))
  end.
Proof. exact @FlatP.flat_at. Qed.
Print Assumptions C82_flat_map_at.

Example C82_flat_map_at_case :
  let m := mkFlat tt [(1, 10); (5, 50)] : flat unit (list (nat * nat)) in
  let cmp := fun (_ : unit) a b => a <? b in
  map_at cmp cmp (vec_cont _) false true 5 m = Runs (Ok 50 m) /\
  map_at cmp cmp (vec_cont _) false true 3 m = Runs (Throw OutOfRange m) /\
  map_at cmp cmp (vec_cont _) true true 3 m = Aborts /\
  map_at cmp cmp (vec_cont _) true false 3 m = Runs (Ok 50 m) /\
  border (fun e => cmp tt (fst e) 3 = true) [(1, 10); (5, 50)] 1 /\
  enumerates fst cmp tt [(1, 10); (5, 50)]
    (fun k => if k =? 1 then Some (1, 10) else if k =? 5 then Some (5, 50) else None).
Proof.
  cbv zeta. do 4 (split; [reflexivity|]). split.
  - split; [cbn; lia|]. split; intros [|[|[|i]]] e Hi He; cbn in He; try lia; try discriminate; injection He as <-; cbn; congruence.
  - split.
    + intros i j a b Hij Ea Eb. destruct j as [|[|[|j]]]; cbn in Eb; try lia; try discriminate.
      destruct i; [|lia]. injection Ea as <-. injection Eb as <-. reflexivity.
    + intros k e. unfold equivalent. cbn [In fst]. destruct (Nat.eqb_spec k 1) as [->|H1].
      * split.
        -- intros [= <-]. split; [auto|]. cbn. auto.
        -- intros ([<-|[<-|[]]] & H); cbn in H; [reflexivity|]. destruct H; discriminate.
      * destruct (Nat.eqb_spec k 5) as [->|H5].
        -- split.
           ++ intros [= <-]. split; [auto|]. cbn. auto.
           ++ intros ([<-|[<-|[]]] & H); cbn in H; [|reflexivity]. destruct H; discriminate.
        -- split; [discriminate|]. intros ([<-|[<-|[]]] & H & H'); cbn [fst] in *;
             apply Nat.ltb_ge in H, H'; lia.
Qed.
