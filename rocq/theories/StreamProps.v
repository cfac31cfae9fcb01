(** Properties C31-C34 and C60: mem_ostreambuf, mem_istreambuf, redirect_rstream. *)
From Coq Require Import List Arith NArith ZArith Lia Bool.
From Verif Require Import Base VecCommon StreamModel StreamSpec StreamProofs.
Import ListNotations.

(** Containers for the examples: a std::vector which doubles, a std::string with room for
    15 characters in place. *)
Definition doubling (m : nat) (c n : nat) : nat :=
  if n <=? c then c else Nat.min m (Nat.max n (2 * c)).
Definition a_vector : policy := mkPolicy 0 true (doubling 1000) 1000.
Definition a_string : policy := mkPolicy 15 false (doubling 1000) 1000.
Lemma doubling_good m c0 b : c0 <= m -> good_policy (mkPolicy c0 b (doubling m) m).
Proof.
  intros H. unfold good_policy, doubling. cbn. repeat split; try assumption.
  - intros c n L. now rewrite (proj2 (Nat.leb_le _ _)).
  - rewrite (proj2 (Nat.leb_gt _ _)) by lia. lia.
  - rewrite (proj2 (Nat.leb_gt _ _)) by lia. lia.
Qed.

(** C31. Whatever the container, the initial reserve and the writes: what get_container()
    and peek_container() give is what was written since the last clear() or
    get_container(); writes which the container has no place for throw and change nothing.

    Not covered, since false: other calls than clear() after get_container() when data()
    of a new container is not null, and blocks of 2^31 characters and more; see below. *)
Theorem C31_writes_partial :
  forall (C : Type) (zero : C) (P : policy) (reserve : nat) (os : list (oop C)),
  good_policy P -> reserve <= max_sz P -> walong P false os ->
  exists s0 s,
    oconstruct zero P reserve = Ok tt s0 /\
    orun zero P s0 os = Some (s, snd (wrun P [] os)).
Proof.
  intros C zero P reserve os HP HR HW.
  destruct (oconstruct_ok zero P HP reserve HR) as (s0 & R0 & H0).
  destruct (wstep_fstep P os false [] HW) as (A & B & _); [discriminate|].
  destruct (orun_sim zero P HP os s0 _ H0 A) as (s & R & _).
  exists s0, s. split; [exact R0|]. rewrite R. f_equal. f_equal. exact B.
Qed.
Print Assumptions C31_writes_partial.

(** A reserve the container cannot give makes the constructor throw. *)
Theorem C31_reserve_throws :
  forall (C : Type) (zero : C) (P : policy) (reserve : nat),
  good_policy P -> max_sz P < reserve ->
  exists s, oconstruct zero P reserve = Throw LengthError s.
Proof. intros C zero P reserve HP H. eexists. now apply oconstruct_throw. Qed.
Print Assumptions C31_reserve_throws.

(** get_container() sets the put pointers to null. When data() of a new container is not
    null, the next write subtracts pointers into different objects. *)
Theorem C31_after_get_refuted :
  forall (C : Type) (zero : C) (P : policy) (s : ob C) (l : list C) (pos : nat) (c : C),
  good_policy P -> fresh_null P = false -> holds_file P s (Held l pos) ->
  exists s', ocall zero P OGet s = Ok (OaData (firstn pos l)) s' /\
    ocall zero P (OPut c) s' = UB /\
    (forall str, str <> [] -> ocall zero P (OWrite str) s' = UB).
Proof.
  intros C zero P s l pos c HP HF H. exists (mkOb [] (cap0 P) PNull PNull). split.
  - cbn [ocall]. erewrite bind_ok by (apply (get_ok zero P s l pos); exact H). reflexivity.
  - split; [apply taken_write; eauto|]. intros. apply taken_write; eauto.
Qed.
Print Assumptions C31_after_get_refuted.

(** A block of 2^31 characters or more: pbump gets a negative number. *)
Theorem C31_huge_block_refuted :
  forall (C : Type) (zero : C) (P : policy) (s : ob C) (l : list C) (pos : nat) (str : list C),
  good_policy P -> holds_file P s (Held l pos) -> pos + length str <= max_sz P ->
  (int_max1 <= Z.of_nat (length str))%Z -> (Z.of_nat (pos + length str) < 2 * int_max1)%Z ->
  ocall zero P (OWrite str) s = UB.
Proof.
  intros C zero P s l pos str HP H H1 H2 H3. cbn [ocall].
  apply bind_ub. now apply xsputn_huge with (l := l) (pos := pos).
Qed.
Print Assumptions C31_huge_block_refuted.

Example C31_met :
  good_policy a_vector /\ good_policy a_string /\
  let os := [OWrite [1; 2; 3]; OPut 4; OWrite [5; 6]; OTell; OPeek; OGet; OPut 7; OGet] in
  walong a_vector false os /\
  (exists s0 s, oconstruct 0 a_vector 2 = Ok tt s0 /\
     orun 0 a_vector s0 os = Some (s,
       [OaNone; OaNone; OaNone; OaPos 6; OaData [1; 2; 3; 4; 5; 6];
        OaData [1; 2; 3; 4; 5; 6]; OaNone; OaData [7]])) /\
  let os' := [OWrite [1; 2; 3]; OGet; OClear; OPut 7; OGet] in
  walong a_string false os' /\
  (exists s0 s, oconstruct 0 a_string 0 = Ok tt s0 /\
     orun 0 a_string s0 os' = Some (s, [OaNone; OaData [1; 2; 3]; OaNone; OaNone; OaData [7]])) /\
  (* the same without clear() *)
  (exists s0 s, oconstruct 0 a_string 0 = Ok tt s0 /\ fresh_null a_string = false /\
     orun 0 a_string s0 [OWrite [1; 2; 3]; OGet] = Some (s, [OaNone; OaData [1; 2; 3]]) /\
     ocall 0 a_string (OPut 7) s = UB).
Proof.
  split; [apply doubling_good; lia|]. split; [apply doubling_good; lia|]. cbv zeta.
  assert (forall (n : nat) (l s : list nat), n = length l -> n < 10 -> OWrite l = OWrite s -> (Z.of_nat (length s) < int_max1)%Z) as A.
  { intros n l s -> L [= ->]. unfold int_max1. lia. }
  split; [cbn; repeat split; try discriminate; intros s; apply (A _ _ s eq_refl); cbn; lia|].
  split; [eexists; eexists; vm_compute; split; reflexivity|].
  split; [cbn; repeat split; try discriminate; intros s; apply (A _ _ s eq_refl); cbn; lia|].
  split; [eexists; eexists; vm_compute; split; reflexivity|].
  eexists. eexists. split; [vm_compute; reflexivity|]. split; [reflexivity|]. split; [vm_compute; reflexivity|reflexivity].
Qed.
(** The hypotheses about 2^31 characters can be met: a container with room for them. *)
Example C31_huge_met :
  let n := N.to_nat 2147483648 in let P := mkPolicy 0 true (doubling (n + 1)) (n + 1) in
  let str := repeat 7 n in
  good_policy P /\ holds_file P (fresh P) (Held ([] : list nat) 0) /\
  0 + length str <= max_sz P /\ (int_max1 <= Z.of_nat (length str))%Z /\
  (Z.of_nat (0 + length str) < 2 * int_max1)%Z.
Proof.
  cbv zeta. assert (Z.of_nat (N.to_nat 2147483648) = 2147483648%Z) as E by (rewrite N_nat_Z; reflexivity).
  split; [apply doubling_good; lia|]. split.
  { apply fresh_held. apply doubling_good. lia. }
  rewrite repeat_length. cbn [max_sz]. unfold int_max1. rewrite Nat.add_0_l, E. repeat split; lia.
Qed.

(** C32. Seeks to the beginning and to the current position, within the data written:
    the buffer is a file with a position.

    Not covered, since false: seeks relative to the end, and positions of 2^31 and more. *)
Theorem C32_seeks_partial :
  forall (C : Type) (zero : C) (P : policy) (reserve : nat) (os : list (oop C)),
  good_policy P -> reserve <= max_sz P -> falong P (Held [] 0) os ->
  exists s0 s,
    oconstruct zero P reserve = Ok tt s0 /\
    orun zero P s0 os = Some (s, snd (frun P (Held [] 0) os)) /\
    holds_file P s (fst (frun P (Held [] 0) os)).
Proof.
  intros C zero P reserve os HP HR HW.
  destruct (oconstruct_ok zero P HP reserve HR) as (s0 & R0 & H0).
  destruct (orun_sim zero P HP os s0 _ H0 HW) as (s & R & H). eauto.
Qed.
Print Assumptions C32_seeks_partial.

(** The end is taken to be the end of the spare capacity: whenever there is any, seeking
    to the end goes beyond the data written, and the characters in between become part of
    it. *)
Theorem C32_end_refuted :
  forall (C : Type) (P : policy) (s : ob C) (l : list C) (pos : nat),
  good_policy P -> holds_file P s (Held l pos) ->
  length l < length (odata s) -> (Z.of_nat (length (odata s)) < int_max1)%Z ->
  exists s',
    oseekoff P 0 End s = Ok (Z.of_nat (length (odata s))) s' /\
    holds_file P s' (Held (odata s) (length (odata s))).
Proof.
  intros C P s l pos HP H L H31.
  destruct (seek_end P s l pos 0 H) as (s' & R & H'); try lia.
  exists s'. rewrite Z.add_0_r, Nat2Z.id in *. auto.
Qed.
Print Assumptions C32_end_refuted.

(** Positions from 2^31 on, even within the data written. *)
Theorem C32_far_refuted :
  forall (C : Type) (P : policy) (s : ob C) (l : list C) (pos : nat) (off : Z),
  holds_file P s (Held l pos) ->
  (int_max1 <= off <= Z.of_nat (length l))%Z -> (off < 2 * int_max1)%Z ->
  oseekoff P off Beg s = UB.
Proof. intros C P s l pos off H H1 H2. apply seek_far with (l := l) (pos := pos); auto. lia. Qed.
Print Assumptions C32_far_refuted.

Example C32_met :
  let os := [OWrite [1; 2; 3; 4; 5]; OSeekBeg 1; OWrite [7; 8]; OTell; OSeekCur 2; OPeek;
             OSeekCur (-3); OPut 9; OSeekBeg 5; OWrite [6; 6]; OGet] in
  falong a_vector (Held [] 0) os /\
  snd (frun a_vector (Held [] 0) os) =
    [OaNone; OaPos 1; OaNone; OaPos 3; OaPos 5; OaData [1; 7; 8; 4; 5];
     OaPos 2; OaNone; OaPos 5; OaNone; OaData [1; 7; 9; 4; 5; 6; 6]] /\
  exists s0 s s',
    oconstruct 0 a_string 0 = Ok tt s0 /\
    orun 0 a_string s0 [OWrite [1; 2; 3]] = Some (s, [OaNone]) /\
    holds_file a_string s (Held [1; 2; 3] 3) /\
    oseekoff a_string 0 End s = Ok 15%Z s' /\
    ocall 0 a_string OGet s' = Ok (OaData [1; 2; 3; 0; 0; 0; 0; 0; 0; 0; 0; 0; 0; 0; 0]) (mkOb [] 15 PNull PNull).
Proof.
  cbv zeta. split; [|split; [reflexivity|]].
  - vm_compute. repeat split; intros; discriminate.
  - do 3 eexists. split; [vm_compute; reflexivity|]. split; [vm_compute; reflexivity|]. split.
    + cbn. repeat split; try lia. eexists. reflexivity.
    + split; [vm_compute; reflexivity|]. reflexivity.
Qed.
Example C32_far_met :
  let n := N.to_nat 2147483648 in let P := mkPolicy 0 true (doubling (n + 1)) (n + 1) in
  let l := repeat 7 n in
  holds_file P (mkOb l n (POff 0) (POff n)) (Held l 0) /\
  (int_max1 <= 2147483648 <= Z.of_nat (length l))%Z.
Proof.
  cbv zeta. assert (Z.of_nat (N.to_nat 2147483648) = 2147483648%Z) as E by (rewrite N_nat_Z; reflexivity).
  set (n := N.to_nat 2147483648) in *. clearbody n. unfold holds_file. cbn [ocap odata pptr epptr max_sz null_data].
  rewrite repeat_length. repeat split; try lia.
  - exists []. now rewrite app_nil_r.
  - rewrite (proj2 (Nat.eqb_neq n 0)) by lia. split; reflexivity.
  - unfold int_max1. lia.
Qed.

(** C60. After seeking back, get_container() gives all the data written: it does not;
    what is beyond the position is lost. *)
Theorem C60_get_after_seek_refuted :
  forall (C : Type) (zero : C) (P : policy) (s : ob C) (l : list C) (pos : nat),
  good_policy P -> holds_file P s (Held l pos) ->
  exists s', ocall zero P OGet s = Ok (OaData (firstn pos l)) s' /\ odata s' = [].
Proof.
  intros C zero P s l pos HP H. eexists. split.
  - cbn [ocall]. erewrite bind_ok by (apply (get_ok zero P s l pos); exact H). reflexivity.
  - reflexivity.
Qed.
Print Assumptions C60_get_after_seek_refuted.

(** It does when the position is at the end of the data. *)
Theorem C60_get_at_end_partial :
  forall (C : Type) (zero : C) (P : policy) (s : ob C) (l : list C),
  good_policy P -> holds_file P s (Held l (length l)) ->
  exists s', ocall zero P OGet s = Ok (OaData l) s'.
Proof.
  intros C zero P s l HP H. eexists. cbn [ocall].
  erewrite bind_ok by (apply (get_ok zero P s l (length l)); exact H). rewrite firstn_all. reflexivity.
Qed.
Print Assumptions C60_get_at_end_partial.

Example C60_met :
  exists s0 s, oconstruct 0 a_vector 0 = Ok tt s0 /\
    orun 0 a_vector s0 [OWrite [1; 2; 3]; OSeekBeg 1; OGet] = Some (s, [OaNone; OaPos 1; OaData [1]]) /\
    exists s1, orun 0 a_vector s0 [OWrite [1; 2; 3]; OSeekBeg 1] = Some (s1, [OaNone; OaPos 1]) /\
      holds_file a_vector s1 (Held [1; 2; 3] 1).
Proof.
  do 2 eexists. split; [vm_compute; reflexivity|]. split; [vm_compute; reflexivity|].
  eexists. split; [vm_compute; reflexivity|]. cbn. repeat split; try lia. now exists [].
Qed.

(** C33. Reads, ungets and seeks within the memory return the characters at the position,
    clip at the end, and touch nothing else.

    Not covered, since false: seeks to positions outside the memory. *)
Theorem C33_reads_partial :
  forall (C : Type) (mem : list C) (os : list iop),
  (Z.of_nat (length mem) < Z.of_N two63)%Z -> ialong mem 0 os ->
  exists s, irun (ireset mem) os = Some (s, snd (irun_spec mem 0 os)).
Proof.
  intros C mem os HL HA. eexists. unfold ireset. change 0%Z with (Z.of_nat 0).
  apply irun_ok; auto. lia.
Qed.
Print Assumptions C33_reads_partial.

(** A seek outside is accepted, and the next block read is out of bounds; before the
    beginning the next single character, too. *)
Theorem C33_outside_refuted :
  forall (C : Type) (mem : list C) (off : Z) (n : nat) (s : ib C),
  imem s = mem -> 0 < n -> (off < 0)%Z \/ (Z.of_nat (length mem) < off)%Z ->
  exists s', icall (ISeek off Beg) s = Ok (IaPos off) s' /\ icall (IRead n) s' = UB /\
    ((off < 0)%Z -> icall IGet s' = UB /\ icall IPeek s' = UB).
Proof. intros. now apply iseek_outside with (mem := mem). Qed.
Print Assumptions C33_outside_refuted.

Example C33_met :
  let mem := [10; 11; 12; 13; 14] in
  let os := [IRead 2; ITell; IGet; ISeek (-1) End; IRead 7; IGet; IUnget; IPeek;
             ISeek (-3) Cur; IRead 1; ISeek 0 Beg; IUnget; ISize; IRead 9; IRead 1] in
  ialong mem 0 os /\ (Z.of_nat (length mem) < Z.of_N two63)%Z /\
  snd (irun_spec mem 0 os) =
    [IaData [10; 11]; IaPos 2; IaChar (Some 12); IaPos 4; IaData [14]; IaChar None;
     IaChar (Some 14); IaChar (Some 14); IaPos 1; IaData [11]; IaPos 0; IaChar None;
     IaPos 5; IaData mem; IaData []].
Proof. cbv zeta. split; [vm_compute; repeat split; intros; discriminate|]. split; reflexivity. Qed.

(** C34. If the stream has not failed after the redirect, it is where it was, whatever
    was done through the redirect, nested redirects included. And if all that is done
    stays within the contents it does not fail, and every read gives the right data.

    Not covered, since false: reads which hit the end. *)
Theorem C34_restored_partial :
  forall (C : Type) (p : Z) (cs : list cmd) (s : istream C),
  ipos s <= length (content s) ->
  failbit (snd (exec (Redirect p cs) s)) = false ->
  snd (exec (Redirect p cs) s) = mkIs (content s) (ipos s) false false.
Proof. intros. now apply redirect_restores. Qed.
Print Assumptions C34_restored_partial.

Theorem C34_within_partial :
  forall (C : Type) (contents : list C) (p : Z) (cs : list cmd) (pos : nat) ls pos',
  pos <= length contents ->
  plain contents (Redirect p cs) pos = Some (ls, pos') ->
  exec (Redirect p cs) (mkIs contents pos false false) = (ls, mkIs contents pos false false).
Proof.
  intros C contents p cs pos ls pos' H HP.
  destruct (exec_plain contents (Redirect p cs) pos ls pos' H HP) as (R & _). rewrite R.
  assert (pos' = pos) as ->; [|reflexivity].
  rewrite plain_redirect in HP. destruct (_ && _); [|discriminate].
  destruct (_ cs _) as [(a, b)|]; [|discriminate]. congruence.
Qed.
Print Assumptions C34_within_partial.

(** A read through the redirect which hits the end of the stream: the stream is left
    failed at its end, wherever it was. *)
Theorem C34_end_refuted :
  forall (C : Type) (p : Z) (n : nat) (s : istream C),
  good s = true -> ipos s <= length (content s) ->
  (0 <= p <= Z.of_nat (length (content s)))%Z -> length (content s) < Z.to_nat p + n ->
  exec (Redirect p [Read n]) s =
    ([skipn (Z.to_nat p) (content s)], mkIs (content s) (length (content s)) false true).
Proof. intros. now apply redirect_short. Qed.
Print Assumptions C34_end_refuted.

Example C34_met :
  let text := [10; 11; 12; 13; 14] in
  plain text (Redirect 2 [Read 1; Redirect 0 [Read 2; Read 1]; Read 2]) 1 =
    Some ([[12]; [10; 11]; [12]; [13; 14]], 1) /\
  good (mkIs text 1 false false) = true /\
  exec (Redirect 2 [Read 4]) (mkIs text 1 false false) = ([[12; 13; 14]], mkIs text 5 false true) /\
  (* a redirect to a position outside makes the stream fail *)
  failbit (snd (exec (Redirect 9 [Read 1]) (mkIs text 1 false false))) = true.
Proof. repeat split; reflexivity. Qed.
