(** The property theorems about where small_vector keeps its elements: C74. *)
From Coq Require Import List Arith NArith ZArith Bool Lia.
From Verif Require Import Base SeqSpec VecCommon SmallVectorModel SmallVectorSpec SmallVectorProofs
  SmallBufSpec SmallBufProofs.
Import ListNotations.

(** * C74: static and dynamic buffer *)

(** The whole policy: after any history of any number of vectors, is_static() and capacity() of
    each are what SmallBufSpec says.  Missing for C74: resize, see below. *)
Theorem C74_buffer_histories_partial :
  forall (V : Type) (moved : V -> V) (dflt : V) (SC RB : nat) (maxn : N),
  0 < SC -> RB <= SC + 1 -> (maxn < two63)%N ->
  forall (n : nat) (os : list smallsys),
  small_sys_along dflt maxn (repeat [] n) os ->
  exists st,
    run_calls (sys_call moved dflt SC RB maxn) (repeat (init_vec SC) n) os =
      Some (st, snd (small_sys_run dflt (repeat [] n) os)) /\
    places_run SC RB dflt (repeat [] n) (repeat None n) os (map place_of st) /\
    Forall (fun s => capacity s = room_of SC (place_of s)) st.
Proof.
  intros V moved dflt SC RB maxn H1 H2 H3 n os Al.
  destruct (run_places moved dflt SC RB maxn H1 H2 H3 os (repeat (init_vec SC) n) (repeat [] n)) as (st & E & P).
  - now apply init_good with (RB := RB) (maxn := maxn).
  - exact Al.
  - exists st. split; [exact E|]. split.
    + assert (map place_of (repeat (@init_vec V SC) n) = repeat None n) as <-.
      { clear. induction n; cbn [repeat map]; [reflexivity|]. now rewrite IHn. }
      exact P.
    + destruct (history_fact moved dflt SC RB maxn H1 H2 H3 n os Al) as (st2 & E2 & F). rewrite E in E2.
      injection E2 as <-. clear - F. induction F as [|s xs l l' H F IH]; constructor; auto.
      destruct H as (_ & _ & _ & H & _). unfold place_of, is_static, capacity.
      destruct (Nat.eqb_spec (vb s) 0) as [e|ne]; cbn [room_of]; auto.
Qed.
Print Assumptions C74_buffer_histories_partial.

Definition place_history : list (@smallsys nat) :=
  [On 0 (Seq (AssignRange [1; 2; 3])); On 0 (Seq (Insert 1 7)); On 0 (Seq (PushBack 8)); On 0 (Seq (PushBack 9));
   CopyAssign 1 0; On 1 (Seq (EraseRange 0 3)); MoveAssign 2 0; On 2 (Seq PopBack); On 2 (Seq (Resize 1))].
Example C74_buffer_histories_case :
  small_sys_along 0 1000%N (repeat [] 3) place_history /\
  match run_calls (sys_call (fun v => v) 0 3 4 1000%N) (repeat (init_vec 3) 3) place_history with
  | Some (st, _) => map place_of st = [None; None; Some 6]
  | None => False
  end.
Proof. split; [unfold place_history; meets; unfold room; cbn; lia|vm_compute; reflexivity]. Qed.

(** erase, pop_back and clear of a dynamic vector leave it static exactly when the new size is below
    RevertToStaticBelow. *)
Theorem C74_erase_reverts_partial :
  forall (V : Type) (moved : V -> V) (dflt : V) (SC RB : nat) (maxn : N),
  0 < SC -> RB <= SC + 1 -> (maxn < two63)%N ->
  forall (s : @vec V) xs o s' r,
  holds SC s xs -> vfuse s = None -> small_ok maxn xs (Seq o) -> vb s <> 0 ->
  match o with PopBack | Erase _ | EraseRange _ _ | Clear => True | _ => False end ->
  observe (call moved dflt SC RB maxn (Seq o) s) = Some (s', r) -> (forall e, r <> RThrow e) ->
  let n' := length (fst (spec_step dflt None xs o)) in
  (n' < RB -> is_static s' = true) /\ (RB <= n' -> is_static s' = false /\ capacity s' = capacity s).
Proof.
  intros V moved dflt SC RB maxn H1 H2 H3 s xs o s' r Hs Hf Ho Hb Hop E Hr n'.
  destruct (call_place moved dflt SC RB maxn H1 H2 H3 s xs _ s' r Hs Hf Ho E) as (q & P & L & _).
  destruct (call_spec moved dflt SC RB maxn H1 H2 H3 s xs _ Hs Hf Ho) as (s2 & E2 & _).
  rewrite E in E2. injection E2 as <- Er. destruct (holds_size _ _ _ Hs) as (_ & Hc).
  unfold place_of, is_static, capacity in L, P. rewrite (proj2 (Nat.eqb_neq (vb s) 0)) in P by auto.
  assert (lessened SC RB (Some (vcap s)) n' q) as Q.
  { destruct o; try contradiction; cbn [place_step small_step valid_pos] in P, Er.
    - unfold n'. cbn [spec_step] in *. destruct (list_snoc_cases xs) as [->|(ys & y & ->)].
      + subst r. destruct (Hr OutOfRange eq_refl).
      + rewrite app_length in P. cbn [length] in P. rewrite (proj2 (Nat.eqb_neq _ 0)) in P by lia.
        replace (length ys + 1 - 1) with (length ys) in P by lia.
        replace (length _) with (length ys); [exact P|]. 
        destruct ys; cbn [app]; [reflexivity|]. cbn [fst]. change (v :: ys ++ [y]) with ((v :: ys) ++ [y]). now rewrite removelast_last.
    - destruct (Nat.ltb_spec pos (length xs)) as [Hp|Hp]; [|subst r; destruct (Hr OutOfRange eq_refl)].
      unfold n'. cbn [spec_step fst]. replace (length (erase_at xs pos (S pos))) with (length xs - 1); [exact P|].
      unfold erase_at. rewrite app_length, firstn_length, skipn_length. lia.
    - cbn [spec_step] in Er. destruct (Nat.ltb_spec last first) as [Hlf|Hlf]; cbn [orb] in Er; [subst r; destruct (Hr OutOfRange eq_refl)|].
      destruct (Nat.leb_spec last (length xs)) as [Hp|Hp]; [|subst r; destruct (Hr OutOfRange eq_refl)].
      rewrite (proj2 (Nat.leb_le first last)) in P by auto. cbn [andb] in P.
      unfold n'. cbn [spec_step]. rewrite (proj2 (Nat.ltb_ge last first)) by auto. cbn [fst].
      replace (length (erase_at xs first last)) with (length xs - (last - first)); [exact P|].
      unfold erase_at. rewrite app_length, firstn_length, skipn_length. lia.
    - exact P. }
  clear P. unfold lessened, emptied, suits in Q. unfold is_static, capacity.
  destruct (Nat.eqb_spec n' 0) as [e0|n0].
  - subst q. destruct (Nat.eqb_spec RB 0) as [e|ne].
    + split; [lia|]. intros _. destruct (vb s' =? 0); [discriminate|]. split; [reflexivity|congruence].
    + split; [intros _|lia]. now destruct (vb s' =? 0).
  - assert (n' <= length xs) as Hn.
    { unfold n'. destruct o; try contradiction; cbn [spec_step].
      - destruct (list_snoc_cases xs) as [->|(ys & y & ->)]; [auto|]. destruct ys; cbn [app fst]; [cbn; lia|].
        change (v :: ys ++ [y]) with ((v :: ys) ++ [y]). rewrite removelast_last, app_length. lia.
      - cbn [fst]. unfold erase_at. rewrite app_length, firstn_length, skipn_length. lia.
      - destruct (Nat.ltb_spec last first); cbn [fst]; [lia|]. unfold erase_at. rewrite app_length, firstn_length, skipn_length. lia. }
    rewrite (proj2 (Nat.leb_le n' (vcap s))) in Q by lia. destruct (Nat.ltb_spec n' RB) as [Lt|Ge]; subst q.
    + split; [intros _|lia]. now destruct (vb s' =? 0).
    + split; [lia|]. intros _. destruct (vb s' =? 0); [discriminate|]. split; [reflexivity|congruence].
Qed.
Print Assumptions C74_erase_reverts_partial.
Example C74_erase_reverts_case :
  let s := mkVec [Blk (repeat Raw 3); Blk (map Live [5; 6; 7; 8])] 1 (1, 4) 4 None in
  holds 3 s [5; 6; 7; 8] /\ small_ok 1000%N [5; 6; 7; 8] (Seq (Erase 1)) /\
  match call (fun v => v) 0 3 4 1000%N (Seq (Erase 1)) s with
  | Ok _ s' => is_static s' = true /\ holds 3 s' [5; 7; 8]
  | _ => False
  end.
Proof.
  split; [unfold holds; cbn; repeat split; auto; lia|]. split; [exact Logic.I|].
  vm_compute. repeat split; auto; try lia. intros j J1 J2 J3. destruct j as [|[|j]]; [lia|reflexivity|lia].
Qed.

(** False for resize, which the documentation (87-92) names together with erase: a dynamic vector
    stays where it is, whatever the new size, in every state. *)
Theorem C74_resize_refuted :
  forall (V : Type) (moved : V -> V) (dflt : V) (SC RB : nat) (maxn : N),
  0 < SC -> RB <= SC + 1 -> (maxn < two63)%N ->
  forall (s : @vec V) xs n s' r,
  holds SC s xs -> vfuse s = None -> room maxn n -> vb s <> 0 -> n < RB -> n < length xs ->
  observe (call moved dflt SC RB maxn (Seq (Resize n)) s) = Some (s', r) ->
  r = RNone /\ holds SC s' (firstn n xs) /\ length (firstn n xs) < RB /\ is_static s' = false /\ capacity s' = capacity s.
Proof.
  intros V moved dflt SC RB maxn H1 H2 H3 s xs n s' r Hs Hf Ho Hb Hn Hl E.
  destruct (call_place moved dflt SC RB maxn H1 H2 H3 s xs (Seq (Resize n)) s' r Hs Hf Ho E) as (q & P & L & _).
  destruct (call_spec moved dflt SC RB maxn H1 H2 H3 s xs (Seq (Resize n)) Hs Hf Ho) as (s2 & E2 & Hs2 & _).
  rewrite E in E2. injection E2 as <- Er. destruct (holds_size _ _ _ Hs) as (_ & Hc).
  cbn [place_step] in P. unfold enlarged in P. unfold place_of, is_static, capacity in *.
  rewrite (proj2 (Nat.eqb_neq (vb s) 0)) in P by auto. cbn [room_of] in P.
  rewrite (proj2 (Nat.leb_le n (vcap s))) in P by lia. subst q.
  cbn [small_step valid_pos spec_step fits fst] in Hs2. unfold resize_to in Hs2.
  replace (n - length xs) with 0 in Hs2 by lia. cbn [repeat] in Hs2. rewrite app_nil_r in Hs2.
  split; [exact Er|]. split; [exact Hs2|]. split; [rewrite firstn_length; lia|].
  destruct (vb s' =? 0); [discriminate|]. split; [reflexivity|congruence].
Qed.
Print Assumptions C74_resize_refuted.
Example C74_resize_case :
  let s := mkVec [Blk (repeat Raw 3); Blk (map Live [5; 6; 7; 8])] 1 (1, 4) 4 None in
  holds 3 s [5; 6; 7; 8] /\
  match call (fun v => v) 0 3 4 1000%N (Seq (Resize 1)) s with
  | Ok _ s' => is_static s' = false
  | _ => False
  end.
Proof. split; [unfold holds; cbn; repeat split; auto; lia|vm_compute; reflexivity]. Qed.

(** * C11: capacity guarantees *)

(** False as stated, in every state: after reserve(n) of more than the static capacity, a
    push_back to a size below RevertToStaticBelow moves the elements back to the static
    buffer, and the capacity is lost. *)
Theorem C11_reserve_refuted :
  forall (V : Type) (moved : V -> V) (SC RB : nat) (maxn : N),
  0 < SC -> RB <= SC + 1 -> (maxn < two63)%N ->
  forall (s : @vec V) xs n v,
  holds SC s xs -> vfuse s = None -> room maxn n -> SC < n -> length xs + 1 < RB ->
  exists s1 s2,
    reserve moved SC RB maxn (N.of_nat n) s = Ok tt s1 /\ holds SC s1 xs /\
    n <= vcap s1 /\ length xs + 1 <= n /\
    push_back moved SC RB maxn (CopyOf v) s1 = Ok tt s2 /\ holds SC s2 (xs ++ [v]) /\
    vb s2 <> vb s1 /\ vcap s2 = SC /\ vcap s2 < n.
Proof.
  intros V moved SC RB maxn H1 H2 H3 s xs n v Hs Hf Hn Hsc Hrb.
  destruct (reserve_spec moved SC RB maxn H1 H2 H3 s xs n Hs Hn) as (s1 & E1 & Hs1 & F1 & C1 & _).
  assert (Hb : vb s1 <> 0) by (intros e; destruct Hs1 as (_ & _ & _ & Hst & _); rewrite (Hst e) in C1; lia).
  assert (Hr : room maxn (length xs + 1)).
  { unfold room in *. pose proof (Nat.div_le_mono (length xs + 1) n 2). lia. }
  destruct (push_back_spec moved SC RB maxn H1 H2 H3 s1 xs v Hs1 ltac:(congruence) Hr) as (s2 & E2 & Hs2 & _ & _).
  exists s1, s2. do 4 (split; [first [assumption|lia]|]). split; [exact E2|]. split; [exact Hs2|].
  assert (E : observe (call moved v SC RB maxn (Seq (PushBack v)) s1) = Some (s2, RNone)).
  { cbn [call]. unfold no_answer. now rewrite (bind_ok _ _ _ _ _ E2). }
  destruct (call_place moved v SC RB maxn H1 H2 H3 s1 xs (Seq (PushBack v)) s2 RNone Hs1 ltac:(congruence) ltac:(now cbn) E)
    as (q & P & L & _).
  cbn [place_step] in P. unfold place_of, is_static, capacity in P, L.
  rewrite (proj2 (Nat.eqb_neq (vb s1) 0)) in P by auto. unfold suits in P.
  destruct (holds_size _ _ _ Hs1) as (_ & Hc).
  rewrite (proj2 (Nat.leb_le (length xs + 1) (vcap s1))), (proj2 (Nat.ltb_lt (length xs + 1) RB)) in P by lia.
  subst q. destruct (Nat.eqb_spec (vb s2) 0) as [e|]; [|discriminate].
  destruct Hs2 as (_ & _ & _ & Hst & _). rewrite (Hst e), e. split; [congruence|]. split; [reflexivity|lia].
Qed.
Print Assumptions C11_reserve_refuted.

Example C11_refuting_case :
  let s := mkVec [Blk [Live 5; Raw; Raw]] 0 (0, 1) 3 None in
  let s1 := mkVec [Blk [Raw; Raw; Raw]; Blk (Live 5 :: repeat Raw 9)] 1 (1, 1) 10 None in
  holds 3 s [5] /\ room 1000%N 10 /\
  reserve (fun v => v) 3 4 1000%N 10%N s = Ok tt s1 /\
  push_back (fun v => v) 3 4 1000%N (CopyOf 6) s1 =
    Ok tt (mkVec [Blk [Live 5; Live 6; Raw]; Freed] 0 (0, 2) 3 None).
Proof.
  cbv zeta. split; [unfold holds; cbn; repeat split; auto; lia|].
  split; [unfold room; cbn; lia|]. split; vm_compute; reflexivity.
Qed.
