(** C115: the vectors and the views of stride_span form only pointers into the arrays they point into, or
    one past the end, and use no pointer into storage which was given back. *)
From Coq Require Import List Arith ZArith NArith Bool Lia.
From Verif Require Import Base SeqSpec PtrModel PtrSpec.
From Verif Require PodVectorModel PtrProofs PtrSmallProofs PtrPodProofs PtrStrideProofs.
Import ListNotations.

(** * static_vector *)

(** All histories of calls with iterators of the vector, of any capacity, and exactly: the only calls which step
    outside are insertions at begin() which find room, whose loop ends with [--p] from begin(), and pop_back of
    an empty vector. All others are carried out, or rejected when there is no room. *)
Theorem C115_static_vector_partial : forall C os,
  static_in C 0 os ->
  prun (scall C) os (init_sv C)
  = match static_hist C 0 os with Some n => Fine tt (mkSv [Some C] n) | None => Fault Outside end.
Proof. intros C os I. exact (PtrProofs.static_run C os 0 (Nat.le_0_l C) I). Qed.
Print Assumptions C115_static_vector_partial.

Example C115_static_met :
  static_in 4 0 [PushBack tt; PushBack tt; Insert 1 tt; InsertN 2 3 tt; Erase 0; Resize 4; AssignN 9 tt; InsertN 0 0 tt] /\
  static_hist 4 0 [PushBack tt; PushBack tt; Insert 1 tt; InsertN 2 3 tt; Erase 0; Resize 4; AssignN 9 tt; InsertN 0 0 tt]
  = Some 0.
Proof. repeat split; cbn; lia. Qed.

(** An insertion of any number of elements at begin(), into a vector of any size with room for them *)
Theorem C115_static_vector_refuted : forall C n k,
  0 < k -> n + k <= C ->
  scall C (InsertN 0 k tt) (mkSv [Some C] n) = Fault Outside.
Proof.
  intros C n k K H. change (mkSv [Some C] n) with (PtrProofs.St C n).
  rewrite (PtrProofs.static_call C n (InsertN 0 k tt)) by (cbn; lia).
  cbn [static_bad insertion Nat.eqb]. rewrite (proj2 (Nat.ltb_lt 0 k) K), (proj2 (Nat.leb_le _ _) H). reflexivity.
Qed.
Print Assumptions C115_static_vector_refuted.

Example C115_static_refuted_met :
  prun (scall 4) [PushBack tt; PushBack tt] (init_sv 4) = Fine tt (mkSv [Some 4] 2) /\
  scall 4 (InsertN 0 1 tt) (mkSv [Some 4] 2) = Fault Outside.
Proof. split; reflexivity. Qed.

(** * small_vector *)

(** One call on a vector whose pointers are right (which the next theorem keeps up): whether it steps outside, or uses
    a dangling pointer, is told by the size, the capacity and where the buffer is. All other calls leave the right
    number of elements and right pointers, or fail to get the memory they need and leave all pointers as they were. *)
Theorem C115_small_vector_partial : forall SC RB maxn s o,
  0 < SC -> RB <= SC + 1 -> wf SC s -> small_in s o ->
  match small_bad_op RB s o with
  | Some f => call SC RB maxn o s = Fault f
  | None =>
      (exists s', call SC RB maxn o s = Fine tt s' /\ wf SC s' /\ vsize s' = small_size s o) \/
      (call SC RB maxn o s = Rejected s /\ (vcap s < wanted s o \/ o = ShrinkToFit \/ o = RevertToStatic))
  end.
Proof.
  intros SC RB maxn s o H1 H2 W I. destruct o as [o | n | |]; cbn [small_bad_op small_size wanted].
  - pose proof (PtrSmallProofs.small_call SC RB maxn H1 H2 s o W I) as Q.
    destruct (small_bad RB s o); [exact Q |]. destruct Q as [Q | [Q1 Q2]]; [left; exact Q | right; split; [exact Q1 | left; exact Q2]].
  - apply PtrSmallProofs.wf_good in W. destruct W as (M & b & k & c & -> & G).
    destruct (PtrSmallProofs.reserve_ok SC RB maxn H1 H2 M b k c n G) as [(M' & b' & c' & E & G' & K) | [E D]].
    + left. exists (PtrSmallProofs.vst M' b' k c'). rewrite !PtrSmallProofs.vsize_vst.
      split; [exact E | split; [apply PtrSmallProofs.good_wf; exact G' | reflexivity]].
    + right. split; [exact E | left; exact D].
  - destruct (PtrSmallProofs.small_call_other SC RB maxn H1 H2 s ShrinkToFit W ltac:(discriminate)) as (s' & [E | [E ->]] & W' & Z).
    + left. exists s'. split; [exact E | split; [exact W' | exact Z]].
    + right. split; [exact E | right; left; reflexivity].
  - destruct (PtrSmallProofs.small_call_other SC RB maxn H1 H2 s RevertToStatic W ltac:(discriminate)) as (s' & [E | [E ->]] & W' & Z).
    + left. exists s'. split; [exact E | split; [exact W' | exact Z]].
    + right. split; [exact E | right; right; reflexivity].
Qed.
Print Assumptions C115_small_vector_partial.

(** So every history from a new vector, in which no call is one of these when its turn comes, is free of them. *)
Theorem C115_small_vector_history_partial : forall SC RB maxn os,
  0 < SC -> RB <= SC + 1 ->
  (forall pre o post s, os = pre ++ o :: post -> prun (call SC RB maxn) pre (init_vec SC) = Fine tt s ->
     small_in s o /\ small_bad_op RB s o = None) ->
  exists s, prun (call SC RB maxn) os (init_vec SC) = Fine tt s /\ wf SC s.
Proof.
  intros SC RB maxn os H1 H2.
  assert (W : wf SC (init_vec SC)).
  { exists 0, 0. cbn. repeat split; lia. }
  revert W. generalize (init_vec SC) as s. induction os as [| o os IH]; intros s W H.
  - exists s. split; [reflexivity | exact W].
  - destruct (H [] o os s eq_refl eq_refl) as [I B].
    pose proof (C115_small_vector_partial SC RB maxn s o H1 H2 W I) as Q. rewrite B in Q.
    cbn [prun].
    assert (K : exists s', (call SC RB maxn o s = Fine tt s' \/ call SC RB maxn o s = Rejected s') /\ wf SC s').
    { destruct Q as [(s' & E & W' & _) | [E _]].
      - exists s'. split; [left; exact E | exact W'].
      - exists s. split; [right; exact E | exact W]. }
    destruct K as (s' & E & W').
    destruct (IH s' W') as (s2 & R & W2).
    { intros pre o' post s2 EQ R. apply (H (o :: pre) o' post s2); [rewrite EQ; reflexivity |].
      cbn [prun]. destruct E as [-> | ->]; exact R. }
    exists s2. split; [| exact W2]. destruct E as [-> | ->]; exact R.
Qed.
Print Assumptions C115_small_vector_history_partial.

(** Two elements in the object, a third moves them to the heap, a fourth is inserted at begin() for which the buffer
    grows again, two are erased (three stay on the heap), all are assigned anew. *)
Definition ex_small : list smallop :=
  [Seq (Resize 1); Seq (PushBack tt); Seq (PushBack tt); Seq (PushBack tt); Seq (PushBack tt);
   Seq (InsertN 0 3 tt); Seq (EraseRange 1 4); Seq (AssignN 1 tt); Reserve 9; ShrinkToFit].
Example C115_small_met :
  (forall pre o post s, ex_small = pre ++ o :: post -> prun (call 2 2 100) pre (init_vec 2) = Fine tt s ->
     small_in s o /\ small_bad_op 2 s o = None) /\
  exists s, prun (call 2 2 100) ex_small (init_vec 2) = Fine tt s /\ vsize s = 1 /\ fst (vb s) = 0.
Proof.
  split.
  - intros pre o post s E R.
    do 10 (destruct pre as [| p pre];
           [injection E as <- <-; vm_compute in R; injection R as <-; vm_compute; split; [repeat constructor | reflexivity]
           | injection E as <- E]).
    destruct pre; discriminate E.
  - eexists. vm_compute. repeat split.
Qed.

(** push_back into a new vector; an insertion at begin() into a vector in the object with room *)
Theorem C115_small_vector_refuted : forall SC RB maxn,
  0 < SC -> RB <= SC + 1 ->
  call SC RB maxn (Seq (PushBack tt)) (init_vec SC) = Fault Outside /\
  forall s, wf SC s -> on_heap s = false -> vsize s < vcap s ->
    call SC RB maxn (Seq (Insert 0 tt)) s = Fault Outside.
Proof.
  intros SC RB maxn H1 H2. split.
  - assert (W : wf SC (init_vec SC)) by (exists 0, 0; cbn; repeat split; lia).
    pose proof (PtrSmallProofs.small_call SC RB maxn H1 H2 (init_vec SC) (PushBack tt) W Logic.I) as Q.
    cbn [small_bad] in Q. unfold vsize, kept, on_heap in Q. cbn in Q.
    destruct SC; [lia | exact Q].
  - intros s W OH SZ.
    pose proof (PtrSmallProofs.small_call SC RB maxn H1 H2 s (Insert 0 tt) W (Nat.le_0_l _)) as Q.
    cbn [small_bad insertion erasure Nat.eqb andb] in Q. unfold kept in Q. rewrite OH in Q. cbn [negb orb] in Q.
    rewrite (proj2 (Nat.leb_le (vsize s + 1) (vcap s))) in Q by lia. exact Q.
Qed.
Print Assumptions C115_small_vector_refuted.

Example C115_small_refuted_met :
  exists s, prun (call 3 2 100) [Seq (Resize 1)] (init_vec 3) = Fine tt s /\ wf 3 s /\ on_heap s = false /\ vsize s < vcap s.
Proof.
  eexists. vm_compute. split; [reflexivity |]. split; [| split; [reflexivity | lia]].
  exists 0, 1. cbn. repeat split; lia.
Qed.

(** An erasure after which the elements go back into the object subtracts pointers into the buffer it has just
    deallocated. *)
Theorem C115_small_vector_erase_refuted : forall SC RB maxn s pos,
  0 < SC -> RB <= SC + 1 -> wf SC s -> on_heap s = true -> pos < vsize s -> 1 < vsize s -> vsize s - 1 < RB ->
  call SC RB maxn (Seq (Erase pos)) s = Fault Dangling.
Proof.
  intros SC RB maxn s pos H1 H2 W OH P1 P2 P3.
  pose proof (PtrSmallProofs.small_call SC RB maxn H1 H2 s (Erase pos) W P1) as Q.
  cbn [small_bad insertion erasure] in Q. unfold kept in Q. rewrite OH in Q. cbn [negb orb] in Q.
  rewrite (proj2 (Nat.ltb_lt 1 (vsize s)) P2), (proj2 (Nat.leb_gt RB (vsize s - 1)) P3), andb_false_r in Q.
  exact Q.
Qed.
Print Assumptions C115_small_vector_erase_refuted.

Example C115_small_erase_met :
  exists s, prun (call 2 3 100) [Seq (Resize 3)] (init_vec 2) = Fine tt s /\
    wf 2 s /\ on_heap s = true /\ 0 < vsize s /\ 1 < vsize s /\ vsize s - 1 < 3.
Proof.
  eexists. vm_compute. split; [reflexivity |]. split; [| repeat split; lia].
  exists 1, 3. cbn. repeat split; lia.
Qed.

(** * pod_vector *)

(** When reserve and shrink_to_fit compare the old m_begin with the new one, which is the last thing they do, the old
    one points into a block which was given back, whenever the block is another one: for every allocator and
    every type. (That pod_vector forms no pointers outside of its blocks is part of C17: its model has no others.) *)
Theorem C115_pod_vector_refuted : forall A T s r s' b,
  (exists n, PodVectorModel.preserve A T n s = Ok r s') \/ PodVectorModel.pshrink_to_fit A T s = Ok r s' ->
  moved b s s' -> given_back b s'.
Proof.
  intros A T s r s' b [[n E] | E] MV.
  - exact (PtrPodProofs.reserve_moved A T n s r s' b E MV).
  - exact (PtrPodProofs.shrink_moved A T s r s' b E MV).
Qed.
Print Assumptions C115_pod_vector_refuted.

Definition ex_plain : PodVectorModel.alc :=
  PodVectorModel.mkAlc 16 false 1000 false (fun k _ => Some (1024 * (1 + N.of_nat k))%N) (fun _ _ => 205%N) (fun _ => true).
Example C115_pod_met :
  exists s r s', PodVectorModel.preserve ex_plain (PodVectorModel.mkEty 4 4) 2
                   (PodVectorModel.mkMem [] 0, PodVectorModel.init_pv) = Ok true s /\
    PodVectorModel.preserve ex_plain (PodVectorModel.mkEty 4 4) 9 s = Ok r s' /\ moved 0 s s'.
Proof.
  eexists _, _, _. split; [vm_compute; reflexivity |]. split; [vm_compute; reflexivity |].
  split; [exists 0; reflexivity |]. exists 1, 0. split; [reflexivity | discriminate].
Qed.

(** * stride_span *)

(** A range-based for over a view of an array visits the right elements if the stride divides their number; else
    end() points behind the end of the array. By index the right elements are visited always. *)
Theorem C115_stride_span_partial : forall sz len noffset nstride,
  0 < sz -> 0 < nstride -> noffset <= len ->
  ss_iterate sz (from_array sz len noffset nstride) [Some (sz * len)]
  = (if (len - noffset) mod nstride =? 0
     then Fine (array_offsets sz noffset nstride ((len - noffset) / nstride)) [Some (sz * len)]
     else Fault Outside) /\
  let k := (len - noffset + nstride - 1) / nstride in
  ss_index sz (from_array sz len noffset nstride) 0 k [Some (sz * len)]
  = Fine (array_offsets sz noffset nstride k) [Some (sz * len)].
Proof.
  intros sz len noffset nstride H1 H2 H3.
  split; [exact (PtrStrideProofs.array_iterate sz len noffset nstride H1 H2 H3)
         | exact (PtrStrideProofs.array_index sz len noffset nstride H1 H2 H3)].
Qed.
Print Assumptions C115_stride_span_partial.

(** Seven integers, every third from the first on: three of them, the end two integers too far. From the second on: two. *)
Example C115_stride_met :
  ss_iterate 4 (from_array 4 7 0 3) [Some 28] = Fault Outside /\
  ss_iterate 4 (from_array 4 7 1 3) [Some 28] = Fine [4%Z; 16%Z] [Some 28] /\
  ss_index 4 (from_array 4 7 0 3) 0 3 [Some 28] = Fine [0%Z; 12%Z; 24%Z] [Some 28].
Proof. repeat split. Qed.

(** A view of a field of structures, unless it is the first field: end() is behind the end of the array. *)
Theorem C115_stride_span_refuted : forall sz ssz len field,
  0 < sz -> field + sz <= ssz -> 0 < len ->
  ss_iterate sz (member_view ssz len field) [Some (ssz * len)]
  = (if field =? 0 then Fine (field_offsets ssz field len) [Some (ssz * len)] else Fault Outside) /\
  ss_index sz (member_view ssz len field) 0 len [Some (ssz * len)] = Fine (field_offsets ssz field len) [Some (ssz * len)].
Proof.
  intros sz ssz len field H1 H2 H3.
  split; [exact (PtrStrideProofs.member_iterate sz ssz len field H1 H2 H3)
         | exact (PtrStrideProofs.member_index sz ssz len field H1 H2)].
Qed.
Print Assumptions C115_stride_span_refuted.

Example C115_stride_refuted_met :
  ss_iterate 4 (member_view 12 2 8) [Some 24] = Fault Outside /\
  ss_index 4 (member_view 12 2 8) 0 2 [Some 24] = Fine [8%Z; 20%Z] [Some 24].
Proof. split; reflexivity. Qed.

(** ** What the calls above may do with pointers, and no more: form good ones, dereference good ones which are
    not past the end, and give back the beginning of an array of the heap with its size *)
Theorem C115_what_is_checked : forall m p,
  (forall n q, padd m p n = inr q <-> valid m q /\ fst q = fst p /\ snd q = (snd p + n)%Z) /\
  (deref m p = inr tt <-> valid m p /\ ~ past_end m p) /\
  (forall k s s', vmem s = m ->
     (deallocate p k s = Fine tt s' <->
      fst p <> 0 /\ snd p = 0%Z /\ nth_error m (fst p) = Some (Some k) /\
      s' = mkVec (upd m (fst p) None) (vb s) (ve s) (vcap s))).
Proof.
  intros m p. split; [| split].
  - intros n q. unfold padd, valid. split.
    + destruct (nth_error m (fst p)) as [[size |] |] eqn:E; try discriminate.
      destruct ((0 <=? snd p + n)%Z && (snd p + n <=? Z.of_nat size)%Z) eqn:B; [| discriminate].
      apply andb_true_iff in B. intros H. injection H as <-. cbn. split; [exists size; split; [exact E | lia] |].
      split; reflexivity.
    + intros ((size & E & B) & F1 & F2). rewrite F1 in E. rewrite E.
      replace ((0 <=? snd p + n)%Z && (snd p + n <=? Z.of_nat size)%Z) with true.
      * destruct q as [q1 q2]. cbn in F1, F2. now subst.
      * symmetry. apply andb_true_iff. lia.
  - unfold deref, valid, past_end. split.
    + destruct (nth_error m (fst p)) as [[size |] |] eqn:E; try discriminate.
      destruct ((0 <=? snd p)%Z && (snd p <? Z.of_nat size)%Z) eqn:B; [| discriminate].
      apply andb_true_iff in B. intros _. split; [exists size; split; [reflexivity | lia] |].
      intros (size' & E' & F). injection E' as <-. lia.
    + intros [(size & E & B) N]. rewrite E.
      assert (snd p <> Z.of_nat size) by (intros F; apply N; exists size; auto).
      replace ((0 <=? snd p)%Z && (snd p <? Z.of_nat size)%Z) with true; [reflexivity |].
      symmetry. apply andb_true_iff. lia.
  - intros k s s' <-. unfold deallocate. split.
    + destruct (nth_error (vmem s) (fst p)) as [[size |] |] eqn:E; try discriminate.
      destruct ((0 <? fst p) && (snd p =? 0)%Z && (size =? k)) eqn:B; [| discriminate].
      apply andb_true_iff in B. destruct B as [B B3]. apply andb_true_iff in B. destruct B as [B1 B2].
      apply Nat.ltb_lt in B1. apply Z.eqb_eq in B2. apply Nat.eqb_eq in B3. subst size.
      intros H. injection H as <-. repeat split; [lia | exact B2].
    + intros (B1 & B2 & E & ->). rewrite E, B2, Nat.eqb_refl. cbn.
      destruct (fst p) as [| b]; [now elim B1 | reflexivity].
Qed.
Print Assumptions C115_what_is_checked.

Example C115_what_is_checked_met :
  valid [Some 4; Some 6] (1, 6%Z) /\ past_end [Some 4; Some 6] (1, 6%Z) /\ deref [Some 4; Some 6] (1, 5%Z) = inr tt /\
  deref [Some 4; Some 6] (1, 6%Z) = inl Outside.
Proof. repeat split; exists 6; cbn; split; try reflexivity; lia. Qed.
