(** C114: insertions and erasures leave the elements before their position alone, so that references
    to these elements stay good. *)
From Coq Require Import List Arith NArith ZArith Bool Lia.
From Verif Require Import Base SeqSpec VecCommon RefsSpec.
From Verif Require StaticVectorModel SmallVectorModel PodVectorModel.
From Verif Require RefsStaticProofs RefsSmallProofs RefsPodProofs.
Import ListNotations.

(** static_vector: always. This holds of every state, reachable or not, and with exceptions from
    copying elements too. *)
Theorem C114_static_vector :
  forall (V : Type) (moved : V -> V) (dflt : V) (Capacity : nat) (o : vop V) (s : @StaticVectorModel.sv V) (i : nat),
  positions_in o (StaticVectorModel.size s) -> i < first_touched o (StaticVectorModel.size s) ->
  (N.of_nat (StaticVectorModel.size s) < two64)%N ->
  untouched (put_sv i) (StaticVectorModel.call moved dflt Capacity o) s /\
  match StaticVectorModel.call moved dflt Capacity o s with
  | Ok _ s' | Throw _ s' => nth_error (StaticVectorModel.data s') i = nth_error (StaticVectorModel.data s) i
  | _ => True
  end.
Proof. intros V moved dflt Capacity o s i H1 H2 H3. exact (RefsStaticProofs.unt_call moved dflt Capacity i o s H1 H2 H3). Qed.
Print Assumptions C114_static_vector.

(** Three elements of five; an element is inserted at 2: element 1 is not touched. *)
Example C114_static_met :
  exists s, (StaticVectorModel.call (fun v => v + 100) 0 5 (PushBack 7) ;;;
             StaticVectorModel.call (fun v => v + 100) 0 5 (PushBack 8) ;;;
             StaticVectorModel.call (fun v => v + 100) 0 5 (PushBack 9)) (StaticVectorModel.init_sv 5) = Ok None s /\
  positions_in (Insert 2 4) (StaticVectorModel.size s) /\ 1 < first_touched (Insert 2 4) (StaticVectorModel.size s) /\
  (N.of_nat (StaticVectorModel.size s) < two64)%N /\
  exists s', StaticVectorModel.call (fun v => v + 100) 0 5 (Insert 2 4) s = Ok (Some 2) s' /\
             StaticVectorModel.data s' = [Live 7; Live 8; Live 4; Live 9; Raw].
Proof. eexists. split; [vm_compute; reflexivity|]. cbn. repeat split; auto. eexists. split; vm_compute; reflexivity. Qed.

(** small_vector: as long as the buffer is kept, which it is if there is room for the new size, and
    a dynamic buffer is not left for want of elements. *)
Theorem C114_small_vector_partial :
  forall (V : Type) (moved : V -> V) (dflt : V) (SC RB : nat) (maxn : N) (o : vop V) (s : @SmallVectorModel.vec V) (b i : nat),
  positions_in o (snd (SmallVectorModel.ve s)) -> i < first_touched o (snd (SmallVectorModel.ve s)) ->
  buffer_stays SC RB o s -> (N.of_nat (new_size o (snd (SmallVectorModel.ve s))) < two64)%N ->
  untouched (put_vec (b, i)) (SmallVectorModel.call moved dflt SC RB maxn (SmallVectorModel.Seq o)) s /\
  match SmallVectorModel.call moved dflt SC RB maxn (SmallVectorModel.Seq o) s with
  | Ok _ s' | Throw _ s' =>
      SmallVectorModel.vb s' = SmallVectorModel.vb s /\ SmallVectorModel.vcap s' = SmallVectorModel.vcap s /\
      SmallVectorModel.slot_at (b, i) (SmallVectorModel.blocks s') = SmallVectorModel.slot_at (b, i) (SmallVectorModel.blocks s)
  | _ => True
  end.
Proof.
  intros V moved dflt SC RB maxn o s b i H1 H2 H3 H4.
  exact (RefsSmallProofs.good_call moved dflt SC RB maxn b i o s H1 H2 H3 H4).
Qed.
Print Assumptions C114_small_vector_partial.

(** What is missing: an insertion into a dynamic buffer with room to spare. If there are less than
    RevertToStaticBelow elements afterwards, the buffer is given up, and references to any of its
    elements dangle (so do they after an erasure, as the documentation says). *)
Theorem C114_small_vector_refuted :
  forall (V : Type) (moved : V -> V) (dflt : V) (SC RB : nat) (maxn : N) (o : vop V) (s : @SmallVectorModel.vec V) a s' (i : nat),
  is_insertion o = true \/ is_erasure o = true ->
  positions_in o (snd (SmallVectorModel.ve s)) ->
  SmallVectorModel.is_static s = false -> new_size o (snd (SmallVectorModel.ve s)) <= SmallVectorModel.vcap s ->
  new_size o (snd (SmallVectorModel.ve s)) < RB -> (N.of_nat (new_size o (snd (SmallVectorModel.ve s))) < two64)%N ->
  SmallVectorModel.call moved dflt SC RB maxn (SmallVectorModel.Seq o) s = Ok a s' ->
  SmallVectorModel.slot_at (SmallVectorModel.vb s, i) (SmallVectorModel.blocks s') = None.
Proof.
  intros V moved dflt SC RB maxn o s a s' i K H1 H2 H3 H4 H5 Q. apply RefsSmallProofs.gone_slot.
  exact (RefsSmallProofs.call_gone moved dflt SC RB maxn o s a s' K H1 H2 H3 H4 H5 Q).
Qed.
Print Assumptions C114_small_vector_refuted.

(** An element, reserve(10), and then push_back: there is room for eight more, but the reference to
    the first element dangles. *)
Example C114_small_refuted_met :
  exists s, (SmallVectorModel.call (fun v => v + 100) 0 3 3 1000 (SmallVectorModel.Seq (PushBack 7)) ;;;
             SmallVectorModel.call (fun v => v + 100) 0 3 3 1000 (SmallVectorModel.Reserve 10)) (SmallVectorModel.init_vec 3) = Ok None s /\
  positions_in (PushBack 8) (snd (SmallVectorModel.ve s)) /\ SmallVectorModel.is_static s = false /\
  SmallVectorModel.vcap s = 10 /\ new_size (PushBack 8) (snd (SmallVectorModel.ve s)) = 2 /\
  SmallVectorModel.slot_at (SmallVectorModel.vb s, 0) (SmallVectorModel.blocks s) = Some (Live 7) /\
  exists s', SmallVectorModel.call (fun v => v + 100) 0 3 3 1000 (SmallVectorModel.Seq (PushBack 8)) s = Ok None s'.
Proof. eexists. split; [vm_compute; reflexivity|]. cbn -[SmallVectorModel.call]. repeat split; auto. eexists. vm_compute. reflexivity. Qed.

(** The buffer stays: three elements of ten, in a dynamic buffer *)
Example C114_small_met :
  exists s, (SmallVectorModel.call (fun v => v + 100) 0 3 3 1000 (SmallVectorModel.Seq (AssignRange [7; 8; 9; 10])) ;;;
             SmallVectorModel.call (fun v => v + 100) 0 3 3 1000 (SmallVectorModel.Reserve 10)) (SmallVectorModel.init_vec 3) = Ok None s /\
  positions_in (Erase (V := nat) 2) (snd (SmallVectorModel.ve s)) /\ 1 < first_touched (Erase (V := nat) 2) (snd (SmallVectorModel.ve s)) /\
  buffer_stays 3 3 (Erase (V := nat) 2) s /\ SmallVectorModel.is_static s = false /\
  SmallVectorModel.slot_at (SmallVectorModel.vb s, 1) (SmallVectorModel.blocks s) = Some (Live 8) /\
  exists s', SmallVectorModel.call (fun v => v + 100) 0 3 3 1000 (SmallVectorModel.Seq (Erase 2)) s = Ok (Some 2) s'.
Proof.
  eexists. split; [vm_compute; reflexivity|]. cbn -[SmallVectorModel.call]. unfold buffer_stays, room. cbn -[SmallVectorModel.call].
  repeat split; auto; try lia. eexists. vm_compute. reflexivity.
Qed.

(** pod_vector: as long as there is room; every byte of every element before the position, and all
    that is before the elements in their block. *)
Theorem C114_pod_vector :
  forall (A : PodVectorModel.alc) (T : PodVectorModel.ety) (early : bool) (o : vop (list N)) (s : PodVectorModel.pst) (b o0 oe j : nat),
  let n := (oe - o0) / PodVectorModel.esz T in
  lies s b o0 oe -> positions_in o n -> first_touched o n <> 0 -> j < o0 + first_touched o n * PodVectorModel.esz T ->
  new_size o n <= PodVectorModel.pcap (snd s) ->
  untouched (put_byte b j) (PodVectorModel.pcall A T early (PodVectorModel.PSeq o)) s /\
  match PodVectorModel.pcall A T early (PodVectorModel.PSeq o) s with
  | Ok _ s' | Throw _ s' =>
      PodVectorModel.pb (snd s') = PodVectorModel.pb (snd s) /\
      PodVectorModel.pcap (snd s') = PodVectorModel.pcap (snd s) /\ byte_at b j s' = byte_at b j s
  | _ => True
  end.
Proof.
  intros A T early o s b o0 oe j n L H1 H2 H3 H4.
  exact (RefsPodProofs.good_pcall A T early b j o s b o0 oe L H1 (fun _ => H3) H2 H4).
Qed.
Print Assumptions C114_pod_vector.

(** Two elements of two bytes and room for three: an insertion at 1 *)
Example C114_pod_met :
  let A := PodVectorModel.mkAlc 16 false 0 false (fun k _ => Some (N.of_nat (1024 * (k + 1)))) (fun _ _ => 7%N) (fun _ => false) in
  let T := PodVectorModel.mkEty 2 2 in
  exists s, (PodVectorModel.pcall A T false (PodVectorModel.PReserve 3) ;;;
             PodVectorModel.pcall A T false (PodVectorModel.PSeq (PushBack [1; 2]%N)) ;;;
             PodVectorModel.pcall A T false (PodVectorModel.PSeq (PushBack [3; 4]%N)))
              (PodVectorModel.mkMem [] 0, PodVectorModel.init_pv) = Ok None s /\
  lies s 0 0 4 /\ byte_at 0 1 s = Some 2%N /\ PodVectorModel.pcap (snd s) = 3 /\
  exists s', PodVectorModel.pcall A T false (PodVectorModel.PSeq (Insert 1 [5; 6]%N)) s = Ok (Some 1) s' /\
             byte_at 0 1 s' = Some 2%N /\ byte_at 0 2 s' = Some 5%N /\ byte_at 0 4 s' = Some 3%N.
Proof. eexists. split; [vm_compute; reflexivity|]. unfold lies. cbn -[PodVectorModel.pcall]. repeat split; auto with arith. eexists. vm_compute. repeat split. Qed.
