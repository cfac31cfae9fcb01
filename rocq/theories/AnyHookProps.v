(** Property C117 of AnyHookModel.v: anys used by the constructors and destructors of the objects
    in anys. *)
From Coq Require Import List Arith Bool Lia.
From Verif Require Import Base VecCommon AnyHookModel AnyHookSpec AnyHookProofs.
Import ListNotations.

(** Object 1 empties any 1 when it is destroyed; object 2 asks any 0 about itself when it is
    built; object 3 fills any 1 with an object 2 when it is built. *)
Definition o1 : obj := Obj 1 8 [] [Has 1; Reset 1; Has 1].
Definition o2 : obj := Obj 2 16 [TypeOf 0] [Has 1].
Definition o3 : obj := Obj 3 24 [Emplace 1 o2; Has 0] [Move 1 2].
Definition prog : list act := [Emplace 0 o3; Emplace 0 o1; Emplace 1 o2; Reset 0; Has 0; Has 1].
Definition prog_answers : list ans :=
  [AType (Some 3); AHas true; AHas true; AType (Some 1); AHas true; AHas true; AHas false; AHas false; AHas false].

(** Whatever the constructors and destructors of the objects do: as long as no any is changed
    while the object in it is built or destroyed, a program of any length and depth does to the
    memory what the cells say, with the same answers, and leaves the anys in use alone. *)
Theorem C117_objects_may_use_anys_partial : forall n l s cs cs' r,
  in_memory s cs -> sexec_all n l cs = Done cs' r ->
  exists s', exec_all n l s = Ok r s' /\ in_memory s' cs' /\ leaves_busy s cs s' cs'.
Proof.
  intros n l s cs cs' r HI HS. apply im_iff in HI.
  destruct (seq_sim _ _ (exec_sim n) l _ _ _ _ HI HS) as (s' & A & B & C).
  exists s'. rewrite im_iff. auto.
Qed.
Print Assumptions C117_objects_may_use_anys_partial.
Example C117_objects_may_use_anys_meets :
  in_memory (init 3) (repeat CEmpty 3) /\
  sexec_all 20 prog (repeat CEmpty 3) = Done [CEmpty; CEmpty; CEmpty] prog_answers.
Proof. split; [apply im_iff, im_init|vm_compute; reflexivity]. Qed.

(** A depth of the number of calls written in the program is enough, and a larger one changes
    nothing. *)
Theorem C117_depth_is_enough : forall n l k,
  calls_all l <= n ->
  sexec_all n l (repeat CEmpty k) <> More /\
  sexec_all n l (repeat CEmpty k) = sexec_all (calls_all l) l (repeat CEmpty k).
Proof.
  intros n l k H.
  assert (E : sexec_all (calls_all l) l (repeat CEmpty k) <> More).
  { destruct (seq_fits _ _ (exec_fits (calls_all l)) l (repeat CEmpty k)) as [F _].
    apply F. rewrite weight_repeat. lia. }
  pose proof (seq_mono _ _ (exec_mono _ _ H) l (repeat CEmpty k) E) as E'.
  unfold sexec_all in *. rewrite E'. auto.
Qed.
Print Assumptions C117_depth_is_enough.
Example C117_depth_is_enough_meets : calls_all prog <= 20 /\ sexec 1 (Emplace 0 o3) [CEmpty; CEmpty] = More.
Proof. split; [apply Nat.leb_le|]; reflexivity. Qed.

(** Objects which only change anys after the one they are in: every such program runs to its
    end, with the answers of the cells, and no any stays in use. *)
Theorem C117_layered_programs_run : forall k l n,
  Forall (layered k 0) l -> calls_all l <= n ->
  exists r cs s, sexec_all n l (repeat CEmpty k) = Done cs r /\
    exec_all n l (init k) = Ok r s /\ in_memory s cs /\
    (forall i o, nth_error cs i <> Some (CBusy o)).
Proof.
  intros k l n HL HN.
  destruct (C117_depth_is_enough n l k HN) as [NM _].
  destruct (seq_free k 0 (sexec n) (exec_free k n 0) l HL _ (lay_init k)) as [NS HB].
  unfold sexec_all in *.
  destruct (sseq (sexec n) l (repeat CEmpty k)) as [cs r| |] eqn:E; [|congruence|congruence].
  destruct (C117_objects_may_use_anys_partial n l (init k) _ cs r
              (proj2 (im_iff _ _) (im_init k)) E) as (s & A & B & _).
  exists r, cs, s. split; [reflexivity|]. split; [exact A|]. split; [exact B|].
  intros i o H. destruct (HB _ _ eq_refl) as (_ & _ & F). apply F in H. lia.
Qed.
Print Assumptions C117_layered_programs_run.
Example C117_layered_programs_run_meets : Forall (layered 3 0) prog.
Proof. repeat constructor. Qed.

(** Once the anys are empty, every block which was ever allocated was given back. *)
Theorem C117_everything_given_back : forall s cs,
  in_memory s cs -> (forall c, In c cs -> c = CEmpty) -> forall b x, nth_error (mem s) b = Some x -> x = Gone.
Proof.
  intros s cs HI HE b x Hb. pose proof HI as (HL & H0 & _ & _ & _ & HG).
  destruct (HG _ _ Hb) as [H|[i Hi]]; [exact H|].
  destruct (nth_same _ cs i _ HL Hi) as [c Hc].
  rewrite (HE c (nth_error_In _ _ Hc)) in Hc. rewrite (H0 _ Hc) in Hi. discriminate.
Qed.
Print Assumptions C117_everything_given_back.
Example C117_everything_given_back_meets :
  exists s, exec_all 20 prog (init 3) = Ok prog_answers s /\ mem s = [Gone; Gone; Gone; Gone].
Proof. exists (mkSt [None; None; None] [Gone; Gone; Gone; Gone]). split; vm_compute; reflexivity. Qed.

(** But an object must not change the any it is in while its constructor or destructor runs:
    reset and emplace and assignments are undefined there. *)
Theorem C117_own_any_may_be_changed_refuted : forall n s cs i o,
  in_memory s cs -> nth_error cs i = Some (CBusy o) ->
  exec (S n) (Reset i) s = UB /\
  (forall o', exec (S n) (Emplace i o') s = UB) /\
  (forall j, j <> i -> exec (S n) (Move i j) s = UB).
Proof.
  intros n s cs i o (_ & _ & _ & HB & _) Hi.
  destruct (HB _ _ Hi) as (b & h & p & Hp & Hb & Hph).
  assert (E : forall body, reset body i s = UB).
  { intros body. unfold reset, bind, m_block. rewrite Hp. unfold read_blk. rewrite Hb.
    destruct Hph as [[-> ->]|[-> ->]]; reflexivity. }
  split; [apply E|]. split.
  - intros o'. simpl. unfold emplace, bind at 1. now rewrite E.
  - intros j N. simpl. unfold move_assign. destruct (Nat.eqb_spec i j); [congruence|].
    unfold bind at 1. now rewrite E.
Qed.
Print Assumptions C117_own_any_may_be_changed_refuted.
Example C117_own_any_may_be_changed_meets :
  exec_all 20 [Emplace 0 (Obj 1 8 [Reset 0] [])] (init 1) = UB /\
  exec_all 20 [Emplace 0 (Obj 1 8 [] [Reset 0]); Reset 0] (init 1) = UB /\
  exec_all 20 [Emplace 0 (Obj 1 8 [] [Emplace 0 (Obj 2 8 [] [])]); Reset 0] (init 1) = UB.
Proof. repeat split; vm_compute; reflexivity. Qed.

(** And has_value is no sign of an object: it is true, and type is the one of the object, all
    the time in which the object is not alive yet or not anymore. *)
Theorem C117_has_value_means_alive_refuted : forall n s cs i o,
  in_memory s cs -> nth_error cs i = Some (CBusy o) ->
  exec (S n) (Has i) s = Ok [AHas true] s /\ exec (S n) (TypeOf i) s = Ok [AType (Some (oty o))] s /\
  exists b x, nth_error (ptrs s) i = Some (Some b) /\ nth_error (mem s) b = Some x /\
    forall m h o', x <> Block m h Alive o'.
Proof.
  intros n s cs i o (_ & _ & _ & HB & _) Hi.
  destruct (HB _ _ Hi) as (b & h & p & Hp & Hb & Hph). repeat split.
  - simpl. unfold has_value, bind, m_block, ret. now rewrite Hp.
  - simpl. unfold type_of, bind, m_block, read_blk, ret. rewrite Hp. now rewrite Hb.
  - eexists _, _. split; [exact Hp|]. split; [exact Hb|]. intros m h' o' E.
    destruct Hph as [[-> ->]|[-> ->]]; discriminate.
Qed.
Print Assumptions C117_has_value_means_alive_refuted.
Example C117_has_value_means_alive_meets :
  in_memory (mkSt [Some 0] [Block 8 None Building (Obj 1 8 [Has 0] [])]) [CBusy (Obj 1 8 [Has 0] [])].
Proof.
  apply im_iff. unfold im; simpl. split; [reflexivity|]. split; [|split].
  - intros [|[|i]] c p Hc Hp; simpl in *; try discriminate. injection Hc as <-. injection Hp as <-.
    simpl. exists 0, None, Building. auto.
  - intros [|[|i]] [|[|j]] b; simpl; congruence.
  - intros [|[|b]] x H; simpl in H; try discriminate. right. exists 0. reflexivity.
Qed.

(** An object which moves its own any away in its destructor leaves the other any with a block
    in which no object is left, which is never given back: the next use of it is undefined. *)
Theorem C117_moving_away_refuted : forall s cs i k t m c,
  in_memory s cs -> i <> k ->
  nth_error cs i = Some (CHolds (Obj t m c [Move k i])) -> nth_error cs k = Some CEmpty ->
  exists s' b, exec 3 (Reset i) s = Ok [] s' /\
    nth_error (ptrs s') i = Some None /\ nth_error (ptrs s') k = Some (Some b) /\
    nth_error (mem s') b = Some (Bare m) /\
    exec 1 (TypeOf k) s' = UB /\ exec 1 (Reset k) s' = UB.
Proof.
  intros s cs i k t m c HI N Hi Hk. apply im_iff in HI. pose proof HI as (HL & HC & HJ & HG).
  destruct (nth_same cs (ptrs s) i _ (eq_sym HL) Hi) as [p Hp].
  destruct (HC _ _ _ Hi Hp) as (b & -> & Hb).
  destruct (nth_same cs (ptrs s) k _ (eq_sym HL) Hk) as [q Hq].
  pose proof (HC _ _ _ Hk Hq) as E. simpl in E. subst q.
  destruct s as [ps me]. cbn [ptrs mem osize] in *.
  set (x2 := Block m (Some m) Ending (Obj t m c [Move k i])).
  set (ps1 := upd (upd ps k (Some b)) i None).
  assert (P1 : nth_error ps1 i = Some None).
  { unfold ps1. apply (nupd_eq _ _ _ (Some b)). rewrite nupd_ne by auto. exact Hp. }
  exists (mkSt (upd ps1 i None) (upd (upd me b x2) b (Bare m))), b.
  assert (Q : nth_error (upd ps1 i None) k = Some (Some b)).
  { rewrite nupd_ne by auto. unfold ps1. rewrite nupd_ne by auto. exact (nupd_eq _ _ _ _ Hq). }
  assert (B1 : nth_error (upd me b x2) b = Some x2) by exact (nupd_eq _ _ _ _ Hb).
  assert (B2 : nth_error (upd (upd me b x2) b (Bare m)) b = Some (Bare m)) by exact (nupd_eq _ _ _ _ B1).
  split; [|split; [|split; [|split; [|split]]]]; cbn [ptrs mem].
  - assert (MV : exec_all 2 [Move k i] (mkSt ps (upd me b x2)) = Ok [] (mkSt ps1 (upd me b x2))).
    { unfold exec_all, seq_body, exec, move_assign, reset, bind, m_block, set_ptr, ret.
      destruct (Nat.eqb_spec k i) as [F|_]; [congruence|]. cbn [ptrs mem].
      rewrite Hq. cbn [ptrs mem]. rewrite Hp. cbn [ptrs mem]. rewrite Hq. cbn [ptrs mem].
      rewrite nupd_ne by auto. rewrite Hp. reflexivity. }
    change (exec 3 (Reset i)) with (reset (exec_all 2) i).
    unfold reset, bind, m_block. cbn [ptrs mem]. rewrite Hp. unfold read_blk at 1. cbn [ptrs mem].
    rewrite Hb. unfold write_blk at 1. cbn [ptrs mem]. rewrite Hb. cbn [odtor]. fold x2. rewrite MV.
    unfold read_blk. cbn [ptrs mem]. rewrite B1. unfold x2 at 1. unfold write_blk. cbn [ptrs mem].
    rewrite B1. unfold free_block, bind, m_block, deallocate, set_ptr, ret. cbn [ptrs mem].
    rewrite P1. cbn [ptrs mem]. rewrite P1. reflexivity.
  - exact (nupd_eq _ _ _ _ P1).
  - exact Q.
  - exact B2.
  - cbn -[nth_error upd]. unfold type_of, bind, m_block, read_blk. cbn -[nth_error upd]. rewrite Q. cbn -[nth_error upd]. rewrite B2. reflexivity.
  - cbn -[nth_error upd]. unfold reset, bind, m_block, read_blk. cbn -[nth_error upd]. rewrite Q. cbn -[nth_error upd]. rewrite B2. reflexivity.
Qed.
Print Assumptions C117_moving_away_refuted.
Example C117_moving_away_meets :
  exec_all 20 [Emplace 0 (Obj 1 8 [] [Move 1 0]); Reset 0; Reset 1] (init 2) = UB.
Proof. vm_compute. reflexivity. Qed.
