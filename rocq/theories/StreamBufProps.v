(** Property C105: mem_ostreambuf over static_vector, small_vector and pod_vector. *)
From Coq Require Import List Arith NArith ZArith Bool Lia.
From Verif Require Import Base SeqSpec VecCommon StreamModel StreamSpec StreamBufModel StreamBufSpec StreamBufProofs StreamBufInst.
From Verif Require StaticVectorModel SmallVectorModel SmallVectorSpec PodVectorModel PodVectorSpec PodVectorProps.
Import ListNotations.
Open Scope nat_scope.

(** C105. A mem_ostreambuf over itlib::static_vector, from its construction to its
    destruction: its answers are those of a file with a position in it; a write which needs
    more than Capacity characters throws out_of_range and changes nothing; no object is left
    behind.

    Not covered, since false or not to be compiled: writes after get_container() and before
    clear(), when data() of a new container is not null; blocks of no characters, as long as
    data() is null; seeks beyond the data written; get_container() over small_vector, which
    has no member swap although the documentation calls it suitable (mem_streambuf.hpp
    48-49, 132). *)
Theorem C105_static_partial :
  forall (C : Type) (zero : C) (Capacity : nat) (reserve : N) (os : list (oop C)),
  (N.of_nat Capacity < two63)%N -> N.to_nat reserve <= Capacity ->
  kalong anything (fun n => n <= Capacity) (static_full Capacity) false true (Held [] 0) os ->
  exists s0 s v,
    kconstruct (sv_store zero Capacity) reserve (StaticVectorModel.init_sv Capacity) = Ok tt s0 /\
    krun (sv_store zero Capacity) s0 os = Some (s, snd (kruns (static_full Capacity) false (Held [] 0) os)) /\
    k_destroy (sv_store zero Capacity) (held s) = Ok tt v /\ static_released Capacity v.
Proof.
  intros C zero Capacity reserve os Hc Hr A.
  destruct (klife _ _ _ _ _ _ _ (sv_store_ok zero Capacity Hc) (StaticVectorModel.init_sv Capacity) reserve os)
    as (s0 & s & rs & v & E0 & E1 & -> & E2 & E3); auto.
  - now apply sv_rep_init.
  - unfold two63, two64 in *. lia.
  - unfold static_full. destruct (Nat.ltb_spec Capacity (N.to_nat reserve)); [lia|reflexivity].
  - eauto 7.
Qed.
Print Assumptions C105_static_partial.

(** A reserve beyond the Capacity: the constructor throws, and nothing is left behind. *)
Theorem C105_static_reserve_throws :
  forall (C : Type) (zero : C) (Capacity : nat) (reserve : N),
  (N.of_nat Capacity < two63)%N -> Capacity < N.to_nat reserve -> (reserve < two64)%N ->
  exists s v,
    kconstruct (sv_store zero Capacity) reserve (StaticVectorModel.init_sv Capacity) = Throw OutOfRange s /\
    k_destroy (sv_store zero Capacity) (held s) = Ok tt v /\ static_released Capacity v.
Proof.
  intros C zero Capacity reserve Hc Hr H64.
  destruct (klife_throw _ _ _ _ _ _ _ (sv_store_ok zero Capacity Hc) (StaticVectorModel.init_sv Capacity) reserve OutOfRange)
    as (s & v & E0 & E1 & E2); auto.
  - now apply sv_rep_init.
  - unfold static_full. destruct (Nat.ltb_spec Capacity (N.to_nat reserve)); [reflexivity|lia].
  - eauto.
Qed.
Print Assumptions C105_static_reserve_throws.

Example C105_reserve_met : (N.of_nat 6 < two63)%N /\ 6 < N.to_nat 7 /\ (7 < two64)%N.
Proof. split; [reflexivity|]. split; [cbn; lia|reflexivity]. Qed.

(** Over itlib::small_vector, without get_container(). *)
Theorem C105_small_partial :
  forall (C : Type) (zero : C) (SC RB : nat) (maxn : N) (reserve : N) (os : list (oop C)),
  0 < SC -> RB <= SC + 1 -> (maxn < two63)%N -> SmallVectorSpec.room maxn (N.to_nat reserve) ->
  kalong anything (SmallVectorSpec.room maxn) never false false (Held [] 0) os ->
  exists s0 s v,
    kconstruct (small_store zero SC RB maxn) reserve (SmallVectorModel.init_vec SC) = Ok tt s0 /\
    krun (small_store zero SC RB maxn) s0 os = Some (s, snd (kruns never false (Held [] 0) os)) /\
    k_destroy (small_store zero SC RB maxn) (held s) = Ok tt v /\ SmallVectorSpec.all_released SC v.
Proof.
  intros C zero SC RB maxn reserve os H1 H2 H3 Hr A.
  pose proof (small_store_ok zero SC RB maxn H1 H2 H3) as O.
  destruct (klife _ _ _ _ _ _ _ O (SmallVectorModel.init_vec SC) reserve os)
    as (s0 & s & rs & v & E0 & E1 & -> & E2 & E3); auto.
  - now apply (small_rep_init SC RB maxn).
  - pose proof (ok_room _ _ _ _ _ _ _ O _ Hr). lia.
  - eauto 7.
Qed.
Print Assumptions C105_small_partial.

(** Over itlib::pod_vector, for elements of any size, and any allocator. *)
Theorem C105_pod_partial :
  forall (A : PodVectorModel.alc) (T : PodVectorModel.ety) (reserve : N) (os : list (oop (list N))),
  PodVectorSpec.ety_ok T -> PodVectorSpec.alc_ok A -> PodVectorSpec.room T (N.to_nat reserve) ->
  kalong (PodVectorSpec.is_elem T) (PodVectorSpec.room T) never true true (Held [] 0) os ->
  exists s0 s st,
    kconstruct (pod_store A T) reserve (PodVectorModel.mkMem [] 0, PodVectorModel.init_pv) = Ok tt s0 /\
    krun (pod_store A T) s0 os = Some (s, snd (kruns never true (Held [] 0) os)) /\
    k_destroy (pod_store A T) (held s) = Ok tt st /\ pod_released st.
Proof.
  intros A T reserve os HT HA Hr Al. pose proof (pod_store_ok A T HT HA) as O.
  destruct (klife _ _ _ _ _ _ _ O (PodVectorModel.mkMem [] 0, PodVectorModel.init_pv) reserve os)
    as (s0 & s & rs & v & E0 & E1 & -> & E2 & E3); auto.
  - apply pod_rep_init.
  - pose proof (ok_room _ _ _ _ _ _ _ O _ Hr). lia.
  - eauto 7.
Qed.
Print Assumptions C105_pod_partial.

(** A block of no characters (out << "") written to a new buffer: memcpy gets a null
    pointer. *)
Theorem C105_empty_write_refuted :
  forall (A : PodVectorModel.alc) (T : PodVectorModel.ety),
  exists s0, kconstruct (pod_store A T) 0 (PodVectorModel.mkMem [] 0, PodVectorModel.init_pv) = Ok tt s0 /\
    krun (pod_store A T) s0 [OWrite []] = None.
Proof. intros A T. eexists. split; reflexivity. Qed.
Print Assumptions C105_empty_write_refuted.

(** After get_container() a buffer over static_vector is not to be written to: what remains
    of it has null pointers, and a container whose data() is not null. *)
Theorem C105_after_get_refuted :
  forall (C : Type) (zero c : C) (Capacity : nat) (reserve : N) (os : list (oop C)),
  (N.of_nat Capacity < two63)%N -> N.to_nat reserve <= Capacity ->
  kalong anything (fun n => n <= Capacity) (static_full Capacity) false true (Held [] 0) (os ++ [OGet]) ->
  exists s0,
    kconstruct (sv_store zero Capacity) reserve (StaticVectorModel.init_sv Capacity) = Ok tt s0 /\
    krun (sv_store zero Capacity) s0 (os ++ [OGet]) <> None /\
    krun (sv_store zero Capacity) s0 (os ++ [OGet; OPut c]) = None.
Proof.
  intros C zero c Capacity reserve os Hc Hr A. pose proof (sv_store_ok zero Capacity Hc) as O.
  pose proof (kconstruct_ok _ _ _ _ _ _ _ O (StaticVectorModel.init_sv Capacity) reserve) as Q.
  replace (static_full Capacity (N.to_nat reserve)) with (@None exn) in Q.
  2:{ unfold static_full. destruct (Nat.ltb_spec Capacity (N.to_nat reserve)); [lia|reflexivity]. }
  destruct Q as (s0 & E0 & G0); auto.
  - now apply sv_rep_init.
  - unfold two63, two64 in *. lia.
  - exists s0. split; [exact E0|]. exact (after_get _ _ _ _ _ _ _ O s0 _ os c eq_refl G0 A).
Qed.
Print Assumptions C105_after_get_refuted.

(** A seek from the end, at any time in the life of a buffer over static_vector: it ends up at the given distance
    from the end of the container, and not of what was written; from then on the buffer is a file of
    everything in the container. *)
Theorem C105_static_seek_end_partial :
  forall (C : Type) (zero : C) (Capacity : nat) (reserve : N) (os : list (oop C)) (l : list _) (pos : nat),
  (N.of_nat Capacity < two63)%N -> N.to_nat reserve <= Capacity ->
  kalong anything (fun n => n <= Capacity) (static_full Capacity) false true (Held [] 0) os -> fst (kruns (static_full Capacity) false (Held [] 0) os) = Held l pos ->
  exists s0 s t,
    kconstruct (sv_store zero Capacity) reserve (StaticVectorModel.init_sv Capacity) = Ok tt s0 /\
    krun (sv_store zero Capacity) s0 os = Some (s, snd (kruns (static_full Capacity) false (Held [] 0) os)) /\
    k_size (sv_store zero Capacity) (held s) = Ok (length (l ++ t)) (held s) /\
    forall off os', (0 <= Z.of_nat (length (l ++ t)) + off)%Z -> (off <= 0)%Z ->
      (Z.of_nat (length (l ++ t)) + off < int_max1)%Z ->
      let f' := Held (l ++ t) (Z.to_nat (Z.of_nat (length (l ++ t)) + off)) in
      kalong anything (fun n => n <= Capacity) (static_full Capacity) false true f' os' ->
      exists s1 s2, kseekoff (sv_store zero Capacity) off End s = Ok (Z.of_nat (length (l ++ t)) + off)%Z s1 /\
        krun (sv_store zero Capacity) s1 os' = Some (s2, snd (kruns (static_full Capacity) false f' os')).
Proof.
  intros C zero Capacity reserve os l pos Hc Hr A El.
  apply (kseekend _ _ _ _ _ _ _ (sv_store_ok zero Capacity Hc) (StaticVectorModel.init_sv Capacity) reserve os l pos); auto.
  - now apply sv_rep_init.
  - unfold two63, two64 in *. lia.
  - unfold static_full. destruct (Nat.ltb_spec Capacity (N.to_nat reserve)); [lia|reflexivity].
Qed.
Print Assumptions C105_static_seek_end_partial.

(** Over small_vector *)
Theorem C105_small_seek_end_partial :
  forall (C : Type) (zero : C) (SC RB : nat) (maxn : N) (reserve : N) (os : list (oop C)) (l : list _) (pos : nat),
  0 < SC -> RB <= SC + 1 -> (maxn < two63)%N -> SmallVectorSpec.room maxn (N.to_nat reserve) ->
  kalong anything (SmallVectorSpec.room maxn) never false false (Held [] 0) os -> fst (kruns never false (Held [] 0) os) = Held l pos ->
  exists s0 s t,
    kconstruct (small_store zero SC RB maxn) reserve (SmallVectorModel.init_vec SC) = Ok tt s0 /\
    krun (small_store zero SC RB maxn) s0 os = Some (s, snd (kruns never false (Held [] 0) os)) /\
    k_size (small_store zero SC RB maxn) (held s) = Ok (length (l ++ t)) (held s) /\
    forall off os', (0 <= Z.of_nat (length (l ++ t)) + off)%Z -> (off <= 0)%Z ->
      (Z.of_nat (length (l ++ t)) + off < int_max1)%Z ->
      let f' := Held (l ++ t) (Z.to_nat (Z.of_nat (length (l ++ t)) + off)) in
      kalong anything (SmallVectorSpec.room maxn) never false false f' os' ->
      exists s1 s2, kseekoff (small_store zero SC RB maxn) off End s = Ok (Z.of_nat (length (l ++ t)) + off)%Z s1 /\
        krun (small_store zero SC RB maxn) s1 os' = Some (s2, snd (kruns never false f' os')).
Proof.
  intros C zero SC RB maxn reserve os l pos H1 H2 H3 Hr A El.
  pose proof (small_store_ok zero SC RB maxn H1 H2 H3) as O.
  apply (kseekend _ _ _ _ _ _ _ O (SmallVectorModel.init_vec SC) reserve os l pos); auto.
  - now apply (small_rep_init SC RB maxn).
  - pose proof (ok_room _ _ _ _ _ _ _ O _ Hr). lia.
Qed.
Print Assumptions C105_small_seek_end_partial.

(** Over pod_vector *)
Theorem C105_pod_seek_end_partial :
  forall (A : PodVectorModel.alc) (T : PodVectorModel.ety) (reserve : N) (os : list (oop (list N))) (l : list _) (pos : nat),
  PodVectorSpec.ety_ok T -> PodVectorSpec.alc_ok A -> PodVectorSpec.room T (N.to_nat reserve) ->
  kalong (PodVectorSpec.is_elem T) (PodVectorSpec.room T) never true true (Held [] 0) os -> fst (kruns never true (Held [] 0) os) = Held l pos ->
  exists s0 s t,
    kconstruct (pod_store A T) reserve (PodVectorModel.mkMem [] 0, PodVectorModel.init_pv) = Ok tt s0 /\
    krun (pod_store A T) s0 os = Some (s, snd (kruns never true (Held [] 0) os)) /\
    k_size (pod_store A T) (held s) = Ok (length (l ++ t)) (held s) /\
    forall off os', (0 <= Z.of_nat (length (l ++ t)) + off)%Z -> (off <= 0)%Z ->
      (Z.of_nat (length (l ++ t)) + off < int_max1)%Z ->
      let f' := Held (l ++ t) (Z.to_nat (Z.of_nat (length (l ++ t)) + off)) in
      kalong (PodVectorSpec.is_elem T) (PodVectorSpec.room T) never true true f' os' ->
      exists s1 s2, kseekoff (pod_store A T) off End s = Ok (Z.of_nat (length (l ++ t)) + off)%Z s1 /\
        krun (pod_store A T) s1 os' = Some (s2, snd (kruns never true f' os')).
Proof.
  intros A T reserve os l pos HT HA Hr Al El. pose proof (pod_store_ok A T HT HA) as O.
  apply (kseekend _ _ _ _ _ _ _ O (PodVectorModel.mkMem [] 0, PodVectorModel.init_pv) reserve os l pos); auto.
  - apply pod_rep_init.
  - pose proof (ok_room _ _ _ _ _ _ _ O _ Hr). lia.
Qed.
Print Assumptions C105_pod_seek_end_partial.

(** So the end is not the end of what was written: with one character in a buffer over a static_vector for six, a
    seek to the end ends up behind the sixth, and what is read is one character and five nobody wrote. *)
Theorem C105_seek_end_refuted :
  exists s0 s s1 s2,
    kconstruct (sv_store 0 6) 0 (StaticVectorModel.init_sv 6) = Ok tt s0 /\
    krun (sv_store 0 6) s0 [OPut 7; OTell] = Some (s, [OaNone; OaPos 1]) /\
    kseekoff (sv_store 0 6) 0 End s = Ok 6%Z s1 /\
    krun (sv_store 0 6) s1 [OPeek] = Some (s2, [OaData [7; 0; 0; 0; 0; 0]]).
Proof.
  destruct (C105_static_seek_end_partial nat 0 6 0 [OPut 7; OTell] [7] 1) as (s0 & s & t & E0 & E1 & Z & H).
  - reflexivity.
  - cbn. lia.
  - repeat split; cbn; lia.
  - reflexivity.
  - exists s0, s. vm_compute in E0. injection E0 as <-. vm_compute in E1. injection E1 as <-.
    vm_compute in Z. do 2 eexists. split; [reflexivity|]. split; [vm_compute; reflexivity|].
    split; vm_compute; reflexivity.
Qed.
Print Assumptions C105_seek_end_refuted.

(** What the pointers of a buffer are checked for: only pointers into the same memory can be subtracted from each
    other, and data() + off and pbump reach from the beginning to the end of the container. *)
Theorem C105_what_is_checked :
  (forall p b n, kdiff p b = Some n <->
     (p = KNull /\ b = None /\ n = 0) \/ (exists a, p = KAt a n /\ b = Some a)) /\
  (forall b size off p, kaddr b size off = Some p <->
     (b = None /\ off = 0%Z /\ p = KNull) \/
     (exists a, b = Some a /\ (0 <= off <= Z.of_nat size)%Z /\ p = KAt a (Z.to_nat off))) /\
  (forall (C F : Type) (K : store C F) n s s' f size,
     k_size K (held s) = Ok size f ->
     (kpbump K n s = Ok tt s' <->
      (kpptr s = KNull /\ n = 0%Z /\ s' = mkMb f KNull (kepptr s)) \/
      (exists a k, kpptr s = KAt a k /\ (0 <= Z.of_nat k + n <= Z.of_nat size)%Z /\
         s' = mkMb f (KAt a (Z.to_nat (Z.of_nat k + n))) (kepptr s)))).
Proof.
  assert (PE : forall a b, place_eqb a b = true <-> a = b).
  { intros [a i] [b j]. unfold place_eqb. cbn. rewrite andb_true_iff, !Nat.eqb_eq. split; [intros []; congruence|intros E; injection E; auto]. }
  split; [|split].
  - intros p b n. unfold kdiff. destruct p as [|a k], b as [b|].
    + split; [discriminate|]. intros [(_ & E & _)|(a & E & _)]; discriminate.
    + split; [intros E; injection E as <-; auto|]. intros [(_ & _ & ->)|(a & E & _)]; [reflexivity|discriminate].
    + destruct (place_eqb a b) eqn:E.
      * apply PE in E. subst b. split; [intros X; injection X as <-; eauto|].
        intros [(X & _)|(x & X & _)]; [discriminate|congruence].
      * split; [discriminate|]. intros [(X & _)|(x & X & Y)]; [discriminate|].
        assert (a = b) as Q by congruence. apply PE in Q. congruence.
    + split; [discriminate|]. intros [(E & _)|(x & _ & E)]; discriminate.
  - intros b size off p. unfold kaddr. destruct b as [b|].
    + destruct (Z.leb_spec 0 off), (Z.leb_spec off (Z.of_nat size)); cbn [andb];
        (split; [try discriminate|intros [(E & _)|(a & E & L & ->)]; [discriminate E|]; try lia; congruence]).
      intros X. injection X as <-. right. exists b. auto.
    + destruct (Z.eqb_spec off 0); (split; [try discriminate|intros [(_ & E & ->)|(a & E & _)]; [congruence|discriminate E]]).
      intros X. injection X as <-. auto.
  - intros C F K n s s' f size Hs. unfold kpbump, bind, in_held. rewrite Hs. cbn [kpptr kepptr held].
    destruct (kpptr s) as [|a k].
    + destruct (Z.eqb_spec n 0); (split; [try discriminate|intros [(_ & E & ->)|(a & k & E & _)]; [congruence|discriminate E]]).
      intros X. injection X as <-. auto.
    + destruct (Z.leb_spec 0 (Z.of_nat k + n)), (Z.leb_spec (Z.of_nat k + n) (Z.of_nat size)); cbn [andb];
        (split; [try discriminate|intros [(E & _)|(a' & k' & E & L & ->)]; [discriminate E|]; injection E as -> ->; try lia; congruence]).
      intros X. injection X as <-. right. exists a, k. auto.
Qed.
Print Assumptions C105_what_is_checked.
Example C105_what_is_checked_meets :
  kdiff (KAt (1, 0) 3) (Some (1, 0)) = Some 3 /\ kdiff (KAt (1, 0) 3) (Some (2, 0)) = None /\
  kaddr (Some (1, 0)) 4 4 = Some (KAt (1, 0) 4) /\ kaddr (Some (1, 0)) 4 5 = None /\
  k_size (sv_store 0 6) (StaticVectorModel.init_sv 6) = Ok 0 (StaticVectorModel.init_sv 6).
Proof. repeat split. Qed.

(** The theorems' hypotheses are met: one step of a history at a time. *)
Ltac along_one := match goal with
  |- kalong ?e ?r ?fu ?n ?h ?f (?o :: ?os) =>
    let g := eval vm_compute in (fst (kstep fu n f o)) in
    change (kok e r fu n h f o /\ kalong e r fu n h g os); split;
    [cbn [kok length]; repeat match goal with
       | |- True => exact Logic.I
       | |- _ /\ _ => split
       | |- anything _ => exact Logic.I
       | |- Forall _ _ => repeat constructor
       | |- (_ < _)%Z => vm_compute; reflexivity
       | |- (_ <= _)%Z => vm_compute; discriminate
       | |- _ = _ => reflexivity
       | |- _ -> _ => intros ?
       | |- _ <= _ => cbn; lia
       | |- ~ (_ = _) => discriminate
       | H : _ = _ |- _ => discriminate H
       | _ => solve [vm_compute; (reflexivity || discriminate)]
       end|]
  end.

(** A static_vector of six characters, where the third block is refused. *)
Definition C105_history : list (oop nat) :=
  [OWrite [1; 2; 3]; OPut 4; OTell; OSeekBeg 1; OWrite [8; 9]; OPeek; OSeekCur 1; OWrite [5; 6; 7]; OPut 5; OPeek].
Example C105_static_met :
  kalong anything (fun n => n <= 6) (static_full 6) false true (Held [] 0) (C105_history ++ [OGet; OClear; OPut 3; OGet]) /\
  snd (kruns (static_full 6) false (Held [] 0) (C105_history ++ [OGet; OClear; OPut 3; OGet])) =
    [OaNone; OaNone; OaPos 4; OaPos 1; OaNone; OaData [1; 8; 9]; OaPos 4; OaThrow OutOfRange; OaNone;
     OaData [1; 8; 9; 4; 5]; OaData [1; 8; 9; 4; 5]; OaNone; OaNone; OaData [3]].
Proof. split; [|reflexivity]. cbn [C105_history app]. repeat along_one. exact Logic.I. Qed.

(** A small_vector with two places of its own. *)
Example C105_small_met :
  0 < 2 /\ 2 <= 2 + 1 /\ (100 < two63)%N /\ SmallVectorSpec.room 100 (N.to_nat 0) /\
  kalong anything (SmallVectorSpec.room 100) never false false (Held [] 0) (C105_history ++ [OClear; OWrite []; OPut 3; OPeek]) /\
  snd (kruns never false (Held [] 0) (C105_history ++ [OClear; OWrite []; OPut 3; OPeek])) =
    [OaNone; OaNone; OaPos 4; OaPos 1; OaNone; OaData [1; 8; 9]; OaPos 4; OaNone; OaNone;
     OaData [1; 8; 9; 4; 5; 6; 7; 5]; OaNone; OaNone; OaNone; OaData [3]].
Proof.
  split; [lia|]. split; [lia|]. split; [reflexivity|]. split; [vm_compute; discriminate|]. split; [|reflexivity].
  cbn [C105_history app]. repeat along_one. exact Logic.I.
Qed.

(** A pod_vector of characters of two bytes. *)
Definition C105_wide : PodVectorModel.ety := PodVectorModel.mkEty 2 2.
Definition C105_pod_history : list (oop (list N)) :=
  [OWrite [[1; 0]; [2; 0]]%N; OPut [4; 1]%N; OSeekCur (-2); OPut [9; 9]%N; OTell; OSeekBeg 3; OPeek; OGet;
   OPut [7; 7]%N; OPeek; OClear; OTell; OWrite [[5; 5]]%N; OGet].
Example C105_pod_met :
  PodVectorSpec.ety_ok C105_wide /\ PodVectorSpec.alc_ok PodVectorProps.ex_malloc /\
  PodVectorSpec.room C105_wide (N.to_nat 0) /\
  kalong (PodVectorSpec.is_elem C105_wide) (PodVectorSpec.room C105_wide) never true true (Held [] 0) C105_pod_history /\
  snd (kruns never true (Held [] 0) C105_pod_history) =
    [OaNone; OaNone; OaPos 1; OaNone; OaPos 2; OaPos 3; OaData [[1; 0]; [9; 9]; [4; 1]]%N;
     OaData [[1; 0]; [9; 9]; [4; 1]]%N; OaNone; OaData [[7; 7]]%N; OaNone; OaPos 0; OaNone; OaData [[5; 5]]%N].
Proof.
  split; [split; [cbn; lia|exists 1; cbn; lia]|]. split; [exact PodVectorProps.ex_malloc_ok|].
  split; [reflexivity|]. split; [|reflexivity].
  unfold C105_pod_history. repeat along_one. exact Logic.I.
Qed.
Example C105_seek_end_meets :
  kalong anything (fun n => n <= 6) (static_full 6) false true (Held [] 0) C105_history /\
  fst (kruns (static_full 6) false (Held [] 0) C105_history) = Held [1; 8; 9; 4; 5] 5 /\
  kalong anything (SmallVectorSpec.room 100) never false false (Held [] 0) C105_history /\
  kalong (PodVectorSpec.is_elem C105_wide) (PodVectorSpec.room C105_wide) never true true (Held [] 0) (firstn 4 C105_pod_history) /\
  fst (kruns never true (Held [] 0) (firstn 4 C105_pod_history)) = Held [[1; 0]; [9; 9]; [4; 1]]%N 2.
Proof.
  split; [unfold C105_history; repeat along_one; exact Logic.I|]. split; [reflexivity|].
  split; [unfold C105_history; repeat along_one; exact Logic.I|].
  split; [unfold C105_pod_history; cbn [firstn]; repeat along_one; exact Logic.I|reflexivity].
Qed.
