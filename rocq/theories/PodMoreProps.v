(** The property theorems C76 - C79 of pod_vector. *)
From Coq Require Import List Arith NArith ZArith Bool Lia.
From Verif Require Import Base SeqSpec VecCommon SmallVectorModel PodVectorModel PodVectorSpec PodVectorProofs
  PodVectorProps PodMoreSpec PodMoreProofs.
Import ListNotations.

(** An empty vector and one with the elements 1 and 2 and room for three. *)
Definition ex_bs : list mblk := [MBlk 64 [1;0;0;0; 2;0;0;0; 170;170;170;170]%N].
Definition ex_v : pv := mkPv (Some (0, 0)) (Some (0, 8)) 3.
Definition ex_xs : list (list N) := [[1;0;0;0]; [2;0;0;0]]%N.
Lemma ex_holds (A : alc) : a_align A = 16 -> pod_holds A ex_int ex_bs ex_v ex_xs.
Proof.
  intros E. split; [repeat constructor|]. exists [170;170;170;170]%N. cbn [buf ex_v pb]. split.
  - exists 64%N, []. split; [reflexivity|]. split; [reflexivity|]. unfold header, allocator_aligned. cbn [eal ex_int]. rewrite E.
    repeat split; reflexivity.
  - cbn. repeat split; lia.
Qed.

(** * C76: the resizing members tell whether the elements were moved *)

Theorem C76_moves_told :
  forall (A : alc) (T : ety), ety_ok T -> alc_ok A ->
  forall (bs : list mblk) (k : nat) (v : pv) (xs : list (list N)), pod_holds A T bs v xs ->
  (forall n, room T n -> tells_moves (preserve A T (N.of_nat n)) (mkMem bs k) v) /\
  (forall n, room T n -> tells_moves (presize A T (N.of_nat n)) (mkMem bs k) v) /\
  (forall n x, room T n ->
     (forall r m' v', presize_val A T (N.of_nat n) (Val x) (mkMem bs k, v) = Ok r (m', v') ->
        (r = true <-> addr_of (pb v') m' <> addr_of (pb v) (mkMem bs k))) /\
     (xs = [] -> is_elem T x -> tells_moves (presize_val A T (N.of_nat n) (Val x)) (mkMem bs k) v)) /\
  (room T (length xs) -> (pb v <> None -> addr_of (pb v) (mkMem bs k) <> 0%N) ->
     tells_moves (pshrink_to_fit A T) (mkMem bs k) v).
Proof.
  intros A T HT HA bs k v xs Hh. split; [|split; [|split]].
  - intros n Hr. eapply reserve_tells; eauto.
  - intros n Hr. eapply resize_tells; eauto.
  - intros n x Hr. split.
    + intros r m' v' E. eapply resize_val_moves; eauto.
    + intros -> Hx. destruct (resize_val_tells A T HT HA bs k v x n Hh Hx Hr) as (r & m' & v' & E).
      exists r, m', v'. split; [exact E|]. eapply resize_val_moves; eauto.
  - intros Hr Hn. eapply shrink_tells; eauto.
Qed.
Print Assumptions C76_moves_told.

(** Both answers occur: expansion in place, and a new block. *)
Example C76_case :
  pod_holds ex_grow ex_int ex_bs ex_v ex_xs /\ pod_holds ex_malloc ex_int ex_bs ex_v ex_xs /\
  match preserve ex_grow ex_int 4 (mkMem ex_bs 1, ex_v), preserve ex_malloc ex_int 4 (mkMem ex_bs 1, ex_v) with
  | Ok false _, Ok true _ => True
  | _, _ => False
  end.
Proof. split; [now apply ex_holds|]. split; [now apply ex_holds|]. vm_compute. exact Logic.I. Qed.

(** * C77: when there is no memory *)

(** Calls which stay within the capacity work with any allocator whatever, and never call it: in
    particular after a successful reserve(c) no history of at most c elements can fail.  Missing for
    C77: every call which does need memory (below). *)
Theorem C77_within_capacity_partial :
  forall (A : alc) (T : ety), ety_ok T -> (exists k, a_align A = 2 ^ k) ->
  forall (early : bool) (bs : list mblk) (k : nat) (v : pv) (xs : list (list N)) (os : list podop),
  pod_holds A T bs v xs -> within_along A T (pcap v) xs os ->
  exists bs' v' xs' rs,
    run_calls (pcall A T early) (mkMem bs k, v) os = Some ((mkMem bs' k, v'), rs) /\
    one_history A T xs os xs' rs /\ pod_holds A T bs' v' xs' /\ pcap v' = pcap v /\ pb v' = pb v.
Proof. intros A T HT Hp early bs k v xs os Hh Al. eapply within_history; eauto. Qed.
Print Assumptions C77_within_capacity_partial.

(** An allocator without any memory. *)
Definition ex_none : alc := mkAlc 16 false 64 true (fun _ _ => None) (fun _ _ => 170%N) (fun _ => false).
Example C77_within_case :
  pod_holds ex_none ex_int ex_bs ex_v ex_xs /\
  within_along ex_none ex_int 3 ex_xs [PSeq (Insert 0 [9;0;0;0]%N); PSeq (Erase 1); PReserve 3].
Proof.
  split; [now apply ex_holds|].
  assert (forall k, k <= 3 -> room ex_int k) as Hroom.
  { intros k Hk. unfold room, two63. cbn [esz eal ex_int]. destruct k as [|[|[|[|]]]]; [reflexivity..|lia]. }
  cbn [within_along]. split.
  { cbn. repeat split; lia. }
  intros xs' r H. inversion H; subst. cbn. split.
  { repeat split; lia. }
  intros xs' r H'. inversion H'; subst. cbn. split; [|auto]. split; [now apply (Hroom 3)|lia].
Qed.

(** A vector without a buffer, an allocator which answers null: reserve(n) reports nothing - it
    answers false, "iterators still valid" - and capacity() is n although there is no memory; the
    push_back for which it was meant is undefined. *)
Theorem C77_reserve_refuted :
  forall (A : alc) (T : ety), ety_ok T ->
  forall (n : N) (bs : list mblk) (k : nat), (0 < n)%N -> a_addr A k (request A T n) = None ->
  exists m' v', preserve A T n (mkMem bs k, init_pv) = Ok false (m', v') /\
    blks m' = bs /\ pb v' = None /\ N.of_nat (pcap v') = n /\
    forall early x, ppush_back A T early (Val x) (m', v') = UB.
Proof.
  intros A T HT n bs k Hn E. eexists _, _. split; [now apply reserve_denied|]. cbn [blks pb pcap].
  split; [reflexivity|]. split; [reflexivity|]. split; [apply N2Nat.id|]. intros early x. apply push_denied; [exact HT|lia].
Qed.
Print Assumptions C77_reserve_refuted.
Example C77_reserve_case : a_addr ex_none 0 (request ex_none ex_int 5) = None /\ ety_ok ex_int.
Proof. split; [reflexivity|apply ex_int_ok]. Qed.

(** A vector with elements which needs a larger block and does not get one: undefined at once. *)
Theorem C77_grow_refuted :
  forall (A : alc) (T : ety), ety_ok T ->
  (forall call size, a_addr A call size = None) -> (forall call, a_grant A call = false) ->
  forall (bs : list mblk) (k : nat) (v : pv) (xs : list (list N)) (n : nat),
  pod_holds A T bs v xs -> xs <> [] -> pcap v < n -> room T n ->
  preserve A T (N.of_nat n) (mkMem bs k, v) = UB.
Proof. intros A T HT H1 H2 bs k v xs n Hh Hne Hlt Hr. eapply grow_denied; eauto. Qed.
Print Assumptions C77_grow_refuted.
Example C77_grow_case : pod_holds ex_none ex_int ex_bs ex_v ex_xs /\ ex_xs <> [] /\ pcap ex_v < 4 /\ room ex_int 4.
Proof. split; [now apply ex_holds|]. split; [discriminate|]. split; [cbn; lia|reflexivity]. Qed.

(** A vector with a buffer but without elements: realloc fails, the pointer to the buffer is lost;
    after the destructor the block is still there. *)
Theorem C77_leak_refuted :
  forall (A : alc) (T : ety), ety_ok T ->
  (forall call size, a_addr A call size = None) -> (forall call, a_grant A call = false) ->
  a_has_expand A = false -> allocator_aligned A T = true ->
  forall (bs : list mblk) (k : nat) (v : pv) b o n,
  pod_holds A T bs v [] -> pb v = Some (b, o) -> pcap v < n -> room T n ->
  (e2b T (N.of_nat (pcap v)) <= a_wasteful A)%N ->
  exists r k' v' a bytes,
    preserve A T (N.of_nat n) (mkMem bs k, v) = Ok r (mkMem bs k', v') /\
    owner v' = None /\ pdestructor A T (mkMem bs k', v') = Ok tt (mkMem bs k', v') /\
    nth_error bs b = Some (MBlk a bytes).
Proof. intros A T HT H1 H2 Hx Hal bs k v b o n Hh Hp Hlt Hr Hw. eapply leak_denied; eauto. Qed.
Print Assumptions C77_leak_refuted.
Example C77_leak_case :
  pod_holds ex_none ex_int ex_bs (mkPv (Some (0, 0)) (Some (0, 0)) 3) [] /\
  (e2b ex_int (N.of_nat 3) <= a_wasteful ex_none)%N /\ allocator_aligned ex_none ex_int = true.
Proof.
  split; [|split; [vm_compute; discriminate|reflexivity]]. split; [constructor|].
  exists [1;0;0;0; 2;0;0;0; 170;170;170;170]%N. split; [|cbn; repeat split; lia].
  exists 64%N, []. repeat split; reflexivity.
Qed.

(** * C78: sizes whose number of bytes does not fit in 64 bits *)

(** For sizes well below, what reserve(n) claims is there. *)
Theorem C78_room_partial :
  forall (A : alc) (T : ety), ety_ok T -> alc_ok A ->
  forall (bs : list mblk) (k : nat) (v : pv) (xs : list (list N)) (n : nat),
  pod_holds A T bs v xs -> room T n ->
  exists r m' v', preserve A T (N.of_nat n) (mkMem bs k, v) = Ok r (m', v') /\
    n <= pcap v' /\ storage_ok A T m' v' /\ pread_all T (m', v') = Ok xs (m', v').
Proof.
  intros A T HT HA bs k v xs n Hh Hr.
  destruct (preserve_spec A T HT HA bs k v xs n Hh Hr) as (r & bs' & k' & v' & E & Hh' & _ & Hc & _).
  exists r, (mkMem bs' k'), v'. split; [exact E|]. split; [exact Hc|]. split.
  - eapply storage_spec; eauto.
  - eapply pread_all_spec; eauto.
Qed.
Print Assumptions C78_room_partial.
Example C78_room_case : pod_holds ex_malloc ex_a32 [] init_pv [] /\ room ex_a32 1000.
Proof. split; [|reflexivity]. split; [constructor|]. exists []. repeat split; cbn; lia. Qed.

(** Otherwise not: reserve(n) succeeds, capacity() is n, and the block is smaller than that... *)
Theorem C78_reserve_refuted :
  forall (A : alc) (T : ety), ety_ok T -> alc_ok A ->
  forall (n : N) (bs : list mblk) (k : nat),
  (two64 <= n * N.of_nat (esz T))%N -> (e2b T n + N.of_nat (eal T) < two63)%N ->
  exists r m' v', preserve A T n (mkMem bs k, init_pv) = Ok r (m', v') /\
    N.of_nat (pcap v') = n /\ ~ storage_ok A T m' v'.
Proof. intros A T HT HA n bs k H1 H2. now apply reserve_wraps. Qed.
Print Assumptions C78_reserve_refuted.
(** ... and assign(n, x) writes past it. *)
Theorem C78_assign_refuted :
  forall (A : alc) (T : ety), ety_ok T -> alc_ok A ->
  forall (n : N) (bs : list mblk) (k : nat) (x : list N),
  (two64 <= n * N.of_nat (esz T))%N -> (e2b T n + N.of_nat (eal T) < two63)%N -> is_elem T x ->
  passign_fill A T n (Val x) (mkMem bs k, init_pv) = UB.
Proof. intros A T HT HA n bs k x H1 H2 Hx. now apply assign_wraps. Qed.
Print Assumptions C78_assign_refuted.
(** 2^62 + 1 ints: four bytes are asked for. *)
Example C78_case :
  (two64 <= 4611686018427387905 * N.of_nat (esz ex_int))%N /\ e2b ex_int 4611686018427387905 = 4%N /\
  (e2b ex_int 4611686018427387905 + N.of_nat (eal ex_int) < two63)%N.
Proof. split; [vm_compute; discriminate|]. split; reflexivity. Qed.

(** * C79: operator== and operator!= *)

(** [eqT] is == of the element type, on its bytes.  If two elements are equal exactly if their bytes
    are, == is what std::vector's would be; and != is always its negation.  Missing for C79: other
    element types. *)
Theorem C79_equality_partial :
  forall (A : alc) (T : ety), ety_ok T ->
  forall (eqT : list N -> list N -> bool),
  (forall x y, is_elem T x -> is_elem T y -> (eqT x y = true <-> x = y)) ->
  forall (bs : list mblk) (k : nat) (a b : pv) (xs ys : list (list N)),
  pod_holds A T bs a xs -> pod_holds A T bs b ys -> room T (length xs) ->
  pequal T (mkMem bs k, (a, b)) = Ok (std_equal eqT xs ys) (mkMem bs k, (a, b)) /\
  pnequal T (mkMem bs k, (a, b)) = Ok (negb (std_equal eqT xs ys)) (mkMem bs k, (a, b)).
Proof.
  intros A T HT eqT He bs k a b xs ys Ha Hb Hr.
  destruct (both_equal A T HT bs k a b xs ys Ha Hb Hr) as (r & E & E' & K).
  assert (r = std_equal eqT xs ys) as <-; [|auto].
  pose proof (std_equal_eq T eqT xs (proj1 Ha) ys (proj1 Hb) He) as Q.
  destruct r, (std_equal eqT xs ys); try reflexivity.
  - symmetry. apply Q, K. reflexivity.
  - apply K, Q. reflexivity.
Qed.
Print Assumptions C79_equality_partial.

(** != is the negation of ==, for all elements. *)
Theorem C79_not_equal_partial :
  forall (A : alc) (T : ety), ety_ok T ->
  forall (bs : list mblk) (k : nat) (a b : pv) (xs ys : list (list N)),
  pod_holds A T bs a xs -> pod_holds A T bs b ys -> room T (length xs) ->
  exists r, pequal T (mkMem bs k, (a, b)) = Ok r (mkMem bs k, (a, b)) /\
    pnequal T (mkMem bs k, (a, b)) = Ok (negb r) (mkMem bs k, (a, b)).
Proof.
  intros A T HT bs k a b xs ys Ha Hb Hr. destruct (both_equal A T HT bs k a b xs ys Ha Hb Hr) as (r & E & E' & _). eauto.
Qed.
Print Assumptions C79_not_equal_partial.

(** Two elements which are equal though their bytes differ (0.0 and -0.0, or padding): the vectors are
    equal and == says no... *)
Theorem C79_same_value_refuted :
  forall (A : alc) (T : ety), ety_ok T ->
  forall (eqT : list N -> list N -> bool) (x y : list N), eqT x y = true -> x <> y ->
  forall (bs : list mblk) (k : nat) (a b : pv) (xs : list (list N)),
  (forall z, In z xs -> eqT z z = true) ->
  pod_holds A T bs a (x :: xs) -> pod_holds A T bs b (y :: xs) -> room T (length (x :: xs)) ->
  std_equal eqT (x :: xs) (y :: xs) = true /\
  pequal T (mkMem bs k, (a, b)) = Ok false (mkMem bs k, (a, b)).
Proof.
  intros A T HT eqT x y He Hne bs k a b xs Hr Ha Hb Hroom. split.
  - cbn [std_equal]. rewrite He. cbn [andb]. clear - Hr. induction xs as [|z xs IH]; [reflexivity|].
    cbn [std_equal]. rewrite (Hr z) by now left. apply IH. intros z' Hz. apply Hr. now right.
  - destruct (both_equal A T HT bs k a b _ _ Ha Hb Hroom) as ([|] & E & _ & K); [|exact E].
    assert (x :: xs = y :: xs) as [= Q] by now apply K. contradiction.
Qed.
Print Assumptions C79_same_value_refuted.
(** ... and an element which is not equal to itself (a NaN): the other way round. *)
Theorem C79_nan_refuted :
  forall (A : alc) (T : ety), ety_ok T ->
  forall (eqT : list N -> list N -> bool) (x : list N), eqT x x = false ->
  forall (bs : list mblk) (k : nat) (a b : pv) (xs : list (list N)),
  pod_holds A T bs a (x :: xs) -> pod_holds A T bs b (x :: xs) -> room T (length (x :: xs)) ->
  std_equal eqT (x :: xs) (x :: xs) = false /\
  pequal T (mkMem bs k, (a, b)) = Ok true (mkMem bs k, (a, b)).
Proof.
  intros A T HT eqT x He bs k a b xs Ha Hb Hroom. split.
  - cbn [std_equal]. now rewrite He.
  - destruct (both_equal A T HT bs k a b _ _ Ha Hb Hroom) as (r & E & _ & K).
    now rewrite (proj2 K eq_refl) in E.
Qed.
Print Assumptions C79_nan_refuted.

(** Floats: 0.0 and -0.0 are equal, 0x7fc00000 is not equal to itself. *)
Definition ex_feq (x y : list N) : bool :=
  let zero (l : list N) := match l with [0; 0; 0; b] => (b =? 0) || (b =? 128) | _ => false end%N in
  let nan (l : list N) := match l with [_; _; b; c] => (192 <=? b) && ((c =? 127) || (c =? 255)) | _ => false end%N in
  negb (nan x) && ((zero x && zero y) || if list_eq_dec N.eq_dec x y then true else false).
Example C79_case :
  ex_feq [0;0;0;0]%N [0;0;0;128]%N = true /\ ex_feq [0;0;192;127]%N [0;0;192;127]%N = false /\
  pod_holds ex_malloc ex_int [MBlk 16 [0;0;0;0]%N; MBlk 32 [0;0;0;128]%N] (mkPv (Some (0, 0)) (Some (0, 4)) 1) [[0;0;0;0]%N] /\
  pod_holds ex_malloc ex_int [MBlk 16 [0;0;0;0]%N; MBlk 32 [0;0;0;128]%N] (mkPv (Some (1, 0)) (Some (1, 4)) 1) [[0;0;0;128]%N].
Proof.
  split; [reflexivity|]. split; [reflexivity|].
  split; (split; [repeat constructor|]; exists []; split; [|cbn; repeat split; lia]).
  - exists 16%N, []. repeat split; reflexivity.
  - exists 32%N, []. repeat split; reflexivity.
Qed.
