(** Properties of mem_ostreambufs which are copied and moved. *)
From Coq Require Import List Arith NArith ZArith Bool Lia.
From Verif Require Import Base VecCommon StreamModel StreamSpec StreamProofs StreamProps StreamCopyModel
  StreamCopySpec StreamCopyProofs.
Import ListNotations.
Open Scope nat_scope.

(** * C108: copies and moves of a mem_ostreambuf are buffers of their own *)

(** Whatever is done with any number of buffers, they are independent files, as long as a copy
    and a buffer which was moved from are not used before they are cleared or assigned to. A move
    hands the file over when the container hands its memory over, as std::vector does. No call
    has undefined behaviour, and when the last buffer is gone so is all the memory. *)
Theorem C108_independent_partial :
  forall (C : Type) (zero : C) (P : policy) (keeps : nat -> bool) (steals : bool) (os : list (wop C)),
  good_policy P -> (steals = true -> forall c, keeps c = true) ->
  cp_along P steals no_files os ->
  exists w, w_run zero P keeps no_buffers os = Some (w, snd (cp_run P steals no_files os)) /\
    ((forall i, fst (cp_run P steals no_files os) i = None) -> forall a, wmem w a = None).
Proof.
  intros C zero P keeps steals os HP HS H.
  destruct (run_ok zero P HP keeps steals HS os no_buffers no_files (Inv_start P) H) as (w & R & HI).
  exists w. split; [exact R|]. intros E. apply (Inv_end P). eapply Inv_ext; [exact HI|].
  intros i. unfold no_files. now rewrite E.
Qed.
Print Assumptions C108_independent_partial.

(** The pointers of a copy of a buffer with something in it are those of the original. The copy
    cannot tell its position, nor give what is in it; what is written to it gets into the
    original; and when the original is gone, into memory which is there no more. *)
Theorem C108_copy_refuted :
  forall (C : Type) (zero : C) (P : policy) (keeps : nat -> bool) (steals : bool) (os : list (wop C))
         (i j : nat) (l : list C) (pos : nat) (c : C),
  good_policy P -> (steals = true -> forall c, keeps c = true) ->
  cp_along P steals no_files os ->
  let f := fst (cp_run P steals no_files os) in
  let rs := snd (cp_run P steals no_files os) in
  f i = Some (Held l pos) -> l <> [] -> f j = None ->
  (forall o, o = OTell \/ o = OPeek \/ o = OGet ->
     w_run zero P keeps no_buffers (os ++ [WCopy j i; WCall j o]) = None) /\
  (pos < length l -> (Z.of_nat (pos + 1) < int_max1)%Z ->
     exists w, w_run zero P keeps no_buffers
                 (os ++ [WCopy j i; WCall j (OPut c); WCall i (OSeekCur 1); WCall i OPeek])
               = Some (w, rs ++ [OaNone; OaNone; OaPos (Z.of_nat (pos + 1)); OaData (firstn pos l ++ [c])])) /\
  w_run zero P keeps no_buffers (os ++ [WCopy j i; WDestroy i; WCall j (OPut c)]) = None.
Proof.
  intros C zero P keeps steals os i j l pos c HP HS H f rs Ei Nl Ej.
  destruct (run_ok zero P HP keeps steals HS os no_buffers no_files (Inv_start P) H) as (w & R & HI).
  fold f in HI. fold rs in R. assert (i <> j) as Nij by congruence.
  destruct (copy_strays P HP w f j i l pos HI Ej Ei Nl) as (w1 & a & t & R1 & H1 & S1 & M1 & b & B1 & Ba).
  assert (w_call zero P keeps (WCopy j i) w = Ok OaNone w1) as C1.
  { cbn [w_call]. erewrite bind_ok by exact R1. reflexivity. }
  split; [|split].
  - intros o Ho. rewrite (w_run_app zero P keeps os _ _ _ _ R). cbn [w_run]. rewrite C1.
    cbn [w_call]. rewrite (strays_call zero P w1 j a pos _ o S1); [reflexivity|].
    destruct Ho as [->|[->| ->]]; exact Logic.I.
  - intros L L31.
    assert (pos < length (l ++ t)) as L2 by (rewrite app_length; lia).
    destruct (strays_write zero P w1 j a pos _ _ c S1 M1 L2 (le_n _)) as (w2 & R2 & N2 & M2 & B2 & O2).
    assert (Inv P w2 (set_file (set_file f j (Some Taken)) i (Some (Held (overwrite l pos [c]) pos)))) as H2.
    { eapply (strays_Inv P w1 _ i j a b pos l t c w2 H1); eauto.
      - now rewrite set_file_ne.
      - apply set_file_eq. }
    set (f2 := set_file _ _ _) in H2.
    assert (f2 i = Some (Held (overwrite l pos [c]) pos)) as E2 by apply set_file_eq.
    assert (length (overwrite l pos [c]) = length l) as LO by (rewrite overwrite_length by lia; cbn [length]; lia).
    destruct (run_ok zero P HP keeps steals HS [WCall i (OSeekCur 1); WCall i OPeek] w2 f2 H2) as (w3 & R3 & _).
    { cbn [cp_along cp_ok cp_step]. rewrite E2. cbn [fstep fst snd]. split.
      - eexists. split; [reflexivity|]. cbn [fok]. unfold int_max1 in *. lia.
      - rewrite set_file_eq. split; [|exact Logic.I]. eexists. split; [reflexivity|]. exact Logic.I. }
    exists w3. rewrite (w_run_app zero P keeps os _ _ _ _ R).
    change [WCopy j i; WCall j (OPut c); WCall i (OSeekCur 1); WCall i OPeek]
      with ([WCopy j i] ++ [WCall j (OPut c)] ++ [WCall i (OSeekCur 1); WCall i OPeek]).
    rewrite (w_run_app zero P keeps [WCopy j i] w _ w1 [OaNone]) by (cbn [w_run]; now rewrite C1).
    rewrite (w_run_app zero P keeps [WCall j (OPut c)] w1 _ w2 [OaNone]) by (cbn [w_run w_call]; now rewrite R2).
    rewrite R3. cbn [cp_run cp_step]. rewrite E2. cbn [fstep]. rewrite set_file_eq. cbn [fstep snd app].
    replace (Z.of_nat pos + 1)%Z with (Z.of_nat (pos + 1)) by lia. rewrite Nat2Z.id.
    replace (firstn (pos + 1) (overwrite l pos [c])) with (firstn pos l ++ [c]); [reflexivity|].
    unfold overwrite. rewrite app_assoc, firstn_app.
    replace (length (firstn pos l ++ [c])) with (pos + 1) by (rewrite app_length, firstn_length; cbn [length]; lia).
    rewrite Nat.sub_diag. cbn [firstn]. rewrite app_nil_r. symmetry. apply firstn_all2.
    rewrite app_length, firstn_length. cbn [length]. lia.
  - destruct (destroy_ok P w1 _ i H1) as (w2 & R2 & H2).
    { rewrite set_file_ne by exact Nij. rewrite Ei. discriminate. }
    rewrite (w_run_app zero P keeps os _ _ _ _ R). cbn [w_run]. rewrite C1. cbn [w_call].
    erewrite bind_ok by exact R2. unfold ret.
    destruct S1 as (bj & Bj & Pj & Ej' & Nj).
    unfold w_destroy, bind, on, c_free in R2. rewrite B1 in R2. cbn [lbuf lmem] in R2. rewrite Ba, M1 in R2.
    unfold drop in R2. cbn [lmem lnxt lbuf wbuf wmem wnxt] in R2. injection R2 as <-.
    rewrite (strays_dead zero P _ j a pos (length (l ++ t)) c); [reflexivity| |].
    + exists bj. cbn [wbuf]. rewrite !set_buf_ne by congruence. auto.
    + cbn [wmem]. unfold set_block. now rewrite Nat.eqb_refl.
Qed.
Print Assumptions C108_copy_refuted.

(** The same goes for a buffer which was moved to, when the container keeps its memory: a short
    std::string. *)
Theorem C108_move_refuted :
  forall (C : Type) (zero : C) (P : policy) (os : list (wop C)) (i j : nat) (l : list C) (pos : nat) (o : oop C),
  good_policy P -> cp_along P false no_files os ->
  let f := fst (cp_run P false no_files os) in
  f i = Some (Held l pos) -> l <> [] -> f j = None ->
  o = OTell \/ o = OPeek \/ o = OGet ->
  w_run zero P (fun _ => false) no_buffers (os ++ [WMove j i; WCall j o]) = None.
Proof.
  intros C zero P os i j l pos o HP H f Ei Nl Ej Ho.
  assert (false = true -> forall c : nat, (fun _ => false) c = true) as HS by discriminate.
  destruct (run_ok zero P HP (fun _ => false) false HS os no_buffers no_files (Inv_start P) H) as (w & R & HI).
  fold f in HI.
  destruct (move_strays P (fun _ => false) w f j i l pos HI Ej Ei Nl (fun _ => eq_refl)) as (w1 & a & t & R1 & S1).
  rewrite (w_run_app zero P (fun _ => false) os _ _ _ _ R). cbn [w_run w_call].
  erewrite bind_ok by exact R1. unfold ret. rewrite (strays_call zero P w1 j a pos _ o S1); [reflexivity|].
  destruct Ho as [->|[->| ->]]; exact Logic.I.
Qed.
Print Assumptions C108_move_refuted.

(** Two std::vectors: a copy which is cleared first, moves which hand the file on, and all are
    destroyed. *)
Example C108_met :
  let os := [WNew 0 0; WCall 0 (OWrite [1; 2; 3]); WCopy 1 0; WCall 1 OClear; WCall 1 (OPut 7);
             WCall 0 (OPut 4); WMove 2 0; WCall 2 (OPut 5); WCall 2 OPeek; WCall 1 OPeek;
             WMoveAssign 1 2; WCall 1 (OSeekBeg 1); WCall 1 (OPut 9); WCopyAssign 1 1; WCall 1 (OSeekCur 3);
             WCall 1 OGet; WCopyAssign 0 1; WCall 0 OClear; WCall 0 OTell;
             WDestroy 0; WDestroy 1; WDestroy 2] in
  good_policy a_vector /\ cp_along a_vector true no_files os /\
  snd (cp_run a_vector true no_files os) =
    [OaNone; OaNone; OaNone; OaNone; OaNone; OaNone; OaNone; OaNone; OaData [1; 2; 3; 4; 5]; OaData [7];
     OaNone; OaPos 1; OaNone; OaNone; OaPos 5; OaData [1; 9; 3; 4; 5]; OaNone; OaNone; OaPos 0;
     OaNone; OaNone; OaNone] /\
  (forall i, fst (cp_run a_vector true no_files os) i = None).
Proof.
  cbv zeta. split; [exact (proj1 C31_met)|]. split; [|split; [reflexivity|]].
  - cbn. unfold int_max1. repeat split; try discriminate; try (eexists; split; [reflexivity|]); cbn; try solve [auto | vm_compute; intuition discriminate].
  - intros i. destruct i as [|[|[|i]]]; vm_compute; reflexivity.
Qed.
Example C108_copy_met :
  let os := [WNew 0 0; WCall 0 (OWrite [1; 2; 3]); WCall 0 (OSeekBeg 1)] in
  cp_along a_vector true no_files os /\
  fst (cp_run a_vector true no_files os) 0 = Some (Held [1; 2; 3] 1) /\
  fst (cp_run a_vector true no_files os) 1 = None /\
  cp_along a_string false no_files os /\
  fst (cp_run a_string false no_files os) 0 = Some (Held [1; 2; 3] 1).
Proof.
  cbn. unfold int_max1. repeat split; try discriminate; try (eexists; split; [reflexivity|]); cbn; try solve [auto | vm_compute; intuition discriminate].
Qed.

(** What the pointers are checked for: data() + off and pbump reach from the beginning to the end of the memory,
    pbump only in memory which is there. *)
Theorem C108_what_is_checked :
  (forall (C : Type) (s : loc C) size off p, c_addr s size off = Some p <->
     (bbase (lbuf s) = None /\ off = 0%Z /\ p = CNull) \/
     (exists a, bbase (lbuf s) = Some a /\ (0 <= off <= Z.of_nat size)%Z /\ p = CAt a (Z.to_nat off))) /\
  (forall (C : Type) (s s' : loc C) n, c_pbump n s = Ok tt s' <->
     (bp (lbuf s) = CNull /\ n = 0%Z /\ s' = s) \/
     (exists a k l, bp (lbuf s) = CAt a k /\ lmem s a = Some l /\ (0 <= Z.of_nat k + n <= Z.of_nat (length l))%Z /\
        s' = mkLoc (lmem s) (lnxt s)
               (mkBuf (bbase (lbuf s)) (bcap (lbuf s)) (CAt a (Z.to_nat (Z.of_nat k + n))) (be (lbuf s))))).
Proof.
  split.
  - intros C s size off p. unfold c_addr. destruct (bbase (lbuf s)) as [b|].
    + destruct (Z.leb_spec 0 off), (Z.leb_spec off (Z.of_nat size)); cbn [andb];
        (split; [try discriminate|intros [(E & _)|(a & E & L & ->)]; [discriminate E|]; try lia; congruence]).
      intros X. injection X as <-. right. exists b. auto.
    + destruct (Z.eqb_spec off 0); (split; [try discriminate|intros [(_ & E & ->)|(a & E & _)]; [congruence|discriminate E]]).
      intros X. injection X as <-. auto.
  - intros C s s' n. unfold c_pbump. destruct (bp (lbuf s)) as [|a k].
    + destruct (Z.eqb_spec n 0); (split; [try discriminate|intros [(_ & E & ->)|(a & k & l & E & _)]; [congruence|discriminate E]]).
      intros X. injection X as <-. auto.
    + destruct (lmem s a) as [l|] eqn:El.
      * destruct (Z.leb_spec 0 (Z.of_nat k + n)), (Z.leb_spec (Z.of_nat k + n) (Z.of_nat (length l))); cbn [andb];
          (split; [try discriminate|intros [(E & _)|(a' & k' & l' & E & El' & L & ->)]; [discriminate E|];
             injection E as <- <-; rewrite El in El'; injection El' as <-; try lia; congruence]).
        intros X. injection X as <-. right. exists a, k, l. auto.
      * split; [discriminate|]. intros [(E & _)|(a' & k' & l' & E & El' & _)]; [discriminate E|]. congruence.
Qed.
Print Assumptions C108_what_is_checked.
Example C108_what_is_checked_meets :
  let s := mkLoc (fun a => if a =? 1 then Some [5; 6] else None) 2 (mkBuf (Some 1) 2 (CAt 1 1) (CAt 1 2)) in
  c_addr s 2 2 = Some (CAt 1 2) /\ c_addr s 2 3 = None /\ c_pbump 2 s = UB /\ exists s', c_pbump 1 s = Ok tt s'.
Proof. cbn. repeat split. eexists. reflexivity. Qed.
