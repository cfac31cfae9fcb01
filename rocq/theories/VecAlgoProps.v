(** Theorems about the algorithms on the library's vectors. *)
From Coq Require Import List Arith NArith Bool Lia.
From Verif Require Import Base SeqSpec VecCommon AlgoModel AlgoSpec VecAlgoModel VecAlgoSpec VecAlgoProofs.
From Verif Require StaticVectorModel StaticVectorSpec SmallVectorModel SmallVectorSpec PodVectorModel PodVectorSpec.
Import ListNotations.

(** * C111: qalgorithm on static_vector, small_vector and pod_vector *)

(** static_vector: exactly the slots below size() hold an object all the time, whatever is
    erased and wherever a predicate throws. *)
Theorem C111_static_vector {V W : Type} (eqb : V -> W -> bool) (part : V -> W) (moved : V -> V) (dflt : V) (Capacity : nat) :
  (N.of_nat Capacity < two63)%N ->
  let R := fun (s : @StaticVectorModel.sv V) xs =>
    StaticVectorSpec.represents Capacity s xs /\ StaticVectorModel.fuse s = None in
  searches (static_ops moved Capacity) eqb part R /\
  erases (static_ops moved Capacity) eqb part R /\
  interruptions (static_ops moved Capacity) moved R.
Proof.
  intros H R. pose proof (static_follows moved dflt Capacity H) as F. repeat apply conj.
  - exact (searches_ok _ eqb moved part _ F).
  - exact (erases_ok _ eqb moved part _ F).
  - exact (interruptions_ok _ moved _ F).
Qed.
Print Assumptions C111_static_vector.

(** small_vector: the same, wherever the elements are; erasing may bring them back into the
    static buffer. *)
Theorem C111_small_vector {V W : Type} (eqb : V -> W -> bool) (part : V -> W) (moved : V -> V) (dflt : V)
    (SC RB : nat) (maxn : N) :
  0 < SC -> RB <= SC + 1 -> (maxn < two63)%N ->
  let R := fun (s : @SmallVectorModel.vec V) xs =>
    SmallVectorSpec.holds SC s xs /\ SmallVectorModel.vfuse s = None in
  searches (small_ops moved SC RB maxn) eqb part R /\
  erases (small_ops moved SC RB maxn) eqb part R /\
  interruptions (small_ops moved SC RB maxn) moved R.
Proof.
  intros H1 H2 H3 R. pose proof (small_follows moved dflt SC RB maxn H1 H2 H3) as F. repeat apply conj.
  - exact (searches_ok _ eqb moved part _ F).
  - exact (erases_ok _ eqb moved part _ F).
  - exact (interruptions_ok _ moved _ F).
Qed.
Print Assumptions C111_small_vector.

(** pod_vector: the same; a moved element keeps its bytes, and the memory of other vectors is
    not touched. *)
Theorem C111_pod_vector {W : Type} (eqb : list N -> W -> bool) (part : list N -> W)
    (A : PodVectorModel.alc) (T : PodVectorModel.ety) (bs0 : list PodVectorModel.mblk) (v0 : PodVectorModel.pv) :
  PodVectorSpec.ety_ok T ->
  let R := fun (s : PodVectorModel.pst) xs =>
    PodVectorSpec.pod_holds A T (PodVectorModel.blks (fst s)) (snd s) xs /\
    PodVectorSpec.room T (length xs) /\
    others_kept bs0 v0 (PodVectorModel.blks (fst s)) (snd s) in
  searches (pod_ops T) eqb part R /\
  erases (pod_ops T) eqb part R /\
  interruptions (pod_ops T) (fun x => x) R.
Proof.
  intros H R. pose proof (pod_follows A T H bs0 v0) as F. repeat apply conj.
  - exact (searches_ok _ eqb _ part _ F).
  - exact (erases_ok _ eqb _ part _ F).
  - exact (interruptions_ok _ _ _ F).
Qed.
Print Assumptions C111_pod_vector.

(** Five elements in a static_vector, and in a small_vector which goes back to its static
    buffer. *)
Definition five_static : @StaticVectorModel.sv nat :=
  StaticVectorModel.mkSv [Live 5; Live 3; Live 4; Live 3; Live 7; Raw] 5 None.
Definition five_small : @SmallVectorModel.vec nat :=
  SmallVectorModel.mkVec [SmallVectorModel.Blk [Raw; Raw; Raw];
    SmallVectorModel.Blk [Live 5; Live 3; Live 4; Live 3; Live 7]] 1 (1, 5) 5 None.
Lemma five_static_ok : StaticVectorSpec.represents 6 five_static [5; 3; 4; 3; 7].
Proof. repeat apply conj; try reflexivity; [cbn; lia|]. intros i L. do 6 (destruct i as [|i]; [reflexivity|]). lia. Qed.
Lemma five_small_ok : SmallVectorSpec.holds 3 five_small [5; 3; 4; 3; 7].
Proof.
  unfold SmallVectorSpec.holds. cbn. repeat apply conj; try reflexivity; intros; try lia. auto.
Qed.
Example C111_static_vector_example :
  StaticVectorSpec.represents 6 five_static [5; 3; 4; 3; 7] /\
  verase_all (static_ops (fun _ => 0) 6) Nat.eqb (fun x => x) (Outside 3) five_static
    = Ok 2 (StaticVectorModel.mkSv [Live 5; Live 4; Live 7; Raw; Raw; Raw] 3 None) /\
  verase_all_if (static_ops (fun _ => 0) 6) (fun x => if x =? 7 then None else Some (x =? 3)) five_static
    = Throw ElemThrow (StaticVectorModel.mkSv [Live 5; Live 4; Live 0; Live 3; Live 7; Raw] 5 None).
Proof. split; [exact five_static_ok|]. split; vm_compute; reflexivity. Qed.
Example C111_small_vector_example :
  SmallVectorSpec.holds 3 five_small [5; 3; 4; 3; 7] /\
  verase_all (small_ops (fun _ => 0) 3 4 100%N) Nat.eqb (fun x => x) (Outside 3) five_small
    = Ok 2 (SmallVectorModel.mkVec [SmallVectorModel.Blk [Live 5; Live 4; Live 7]; SmallVectorModel.Freed] 0 (0, 3) 3 None).
Proof. split; [exact five_small_ok|]. vm_compute. reflexivity. Qed.

Definition three_pod : PodVectorModel.pst :=
  (PodVectorModel.mkMem [PodVectorModel.MBlk 16%N [1; 0; 2; 0; 1; 0]%N] 1,
   PodVectorModel.mkPv (Some (0, 0)) (Some (0, 6)) 3).
Example C111_pod_vector_example :
  let T := PodVectorModel.mkEty 2 2 in
  let A := PodVectorModel.mkAlc 16 false 64 true (fun _ _ => Some 16%N) (fun _ _ => 170%N) (fun _ => false) in
  let eqb x y := if list_eq_dec N.eq_dec x y then true else false in
  PodVectorSpec.ety_ok T /\
  PodVectorSpec.pod_holds A T (PodVectorModel.blks (fst three_pod)) (snd three_pod) [[1; 0]; [2; 0]; [1; 0]]%N /\
  PodVectorSpec.room T 3 /\
  verase_all (pod_ops T) eqb (fun x => x) (Outside [1; 0]%N) three_pod
    = Ok 2 (PodVectorModel.mkMem [PodVectorModel.MBlk 16%N [2; 0; 2; 0; 1; 0]%N] 1,
            PodVectorModel.mkPv (Some (0, 0)) (Some (0, 2)) 3).
Proof.
  repeat apply conj; try (vm_compute; reflexivity).
  - cbn. lia.
  - exists 1. cbn. lia.
  - repeat constructor.
  - exists []. cbn. repeat apply conj; try reflexivity; try lia.
    exists 16%N, []. repeat split; reflexivity.
Qed.
