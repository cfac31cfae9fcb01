(** C56: allocation of objects with pmr_allocator. *)
From Coq Require Import List Arith NArith Bool Lia.
From Verif Require Import Base VecCommon PmrModel PmrSpec PmrProofs.
Import ListNotations.
Open Scope N_scope.

Section Props.
Context {V : Type}.
Variable max_align : N.

(** While sizes can be written in 64 bits every history of calls does what the specification
    says: allocate_object gives room for n objects, new_object a constructed object or nothing,
    delete_object leaves nothing. In particular nothing is undefined: all memory goes back to the
    resource it came from, with its size and alignment. *)
Theorem C56_history_partial os xs (a : ast V) :
  Forall fits os -> ssteps max_align ainit os xs a ->
  exists s, calls max_align os init = Ok xs s.
Proof.
  intros F H. destruct (calls_sim max_align init ainit os xs a good_init F H) as (s & E & _). eauto.
Qed.

(** What happened to memory is a tidy history: objects are destroyed before their memory is
    released, and so on. What has not been released or destroyed is exactly what the program
    holds. *)
Theorem C56_tidy_partial os xs (a : ast V) s :
  Forall fits os -> ssteps max_align ainit os xs a -> calls max_align os init = Ok xs s ->
  tidy (log s) /\
  (forall b n al, held (log s) b n al <-> exists r, ablocks a b = Some (r, (n, al))) /\
  (forall p U v, aobjs a p = Some (U, v) -> here (log s) p U) /\
  (forall p U, (forall v, aobjs a p <> Some (U, v)) -> gone (log s) p U).
Proof.
  intros F H E. destruct (calls_sim max_align init ainit os xs a good_init F H) as (s' & E' & G).
  rewrite E in E'. injection E' as <-. split; [apply G|]. split; [apply G|]. split; apply G.
Qed.

(** A block which is not held any more has been released with its size and alignment. *)
Theorem C56_released_partial os xs (a : ast V) s b n al :
  Forall fits os -> ssteps max_align ainit os xs a -> calls max_align os init = Ok xs s ->
  In (Allocated b n al) (log s) -> ablocks a b = None ->
  count_occ ev_dec (log s) (Deallocated b n al) = 1%nat /\
  forall n' al', In (Deallocated b n' al') (log s) -> n' = n /\ al' = al.
Proof.
  intros F H E Hin N. destruct (calls_sim max_align init ainit os xs a good_init F H) as (s' & E' & G).
  rewrite E in E'. injection E' as <-. pose proof (g_tidy _ _ G) as T.
  assert (A : forall n' al', In (Deallocated b n' al') (log s) -> n' = n /\ al' = al).
  { intros n' al' D. apply in_split in D as (l1 & l2 & El). rewrite El in T, Hin.
    assert (I2 : In (Allocated b n' al') l2).
    { clear - T. induction l1 as [|e l1 IH]; cbn in T; [apply T|]. apply IH, T. }
    eapply held_fun; [exact T| |exact Hin]. apply in_or_app. right. now right. }
  split; [|exact A].
  assert (D : In (Deallocated b n al) (log s)).
  { destruct (in_dec ev_dec (Deallocated b n al) (log s)) as [D|D]; [exact D|]. exfalso.
    assert (Hh : held (log s) b n al).
    { split; [exact Hin|]. intros n' al' D'. destruct (A _ _ D') as [-> ->]. auto. }
    apply (g_held _ _ G) in Hh as [r Hr]. congruence. }
  clear - T D. induction (log s) as [|e l IH]; [destruct D|]. cbn in T. destruct T as [T He].
  destruct (ev_dec e (Deallocated b n al)) as [->|ne].
  - rewrite count_occ_cons_eq by reflexivity. f_equal. apply count_occ_not_In. apply He.
  - rewrite count_occ_cons_neq by assumption. apply IH; [exact T|]. destruct D; [contradiction|assumption].
Qed.

(** False without that condition: if n * sizeof(U) does not fit, allocate_object succeeds with
    less than the room for n objects, and constructing the last of them is undefined. *)
Theorem C56_overflow_refuted a r (U : ty) n (v : V) :
  0 < size_of U -> two64 <= n * size_of U -> n < two64 ->
  exists s k, calls max_align [MakeAlloc a r; AllocObject a U n false] init =
                Ok [inl Nothing; inl (Ptr (0%nat, 0))] s /\
    heap s 0%nat = Some k /\ bytes k < n * size_of U /\
    call max_align (Construct (0%nat, (n - 1) * size_of U) U v false) s = UB.
Proof.
  intros L0 L1 L2.
  assert (Hm : (n * size_of U) mod two64 < two64) by (apply N.mod_lt; unfold two64; discriminate).
  eexists. eexists. cbn [calls call allocate_object]. unfold allocate_object, allocate_bytes, res_allocate, set_alloc, resource, bind, ret.
  cbn [allocs init heap next log]. rewrite setm_eq.
  split; [reflexivity|]. cbn [heap]. rewrite setm_eq. split; [reflexivity|]. cbn [bytes].
  split; [lia|]. unfold construct_at. cbn [fst snd heap]. rewrite setm_eq. cbn [bytes].
  replace ((n - 1) * size_of U + size_of U) with (n * size_of U).
  2:{ rewrite <- (N.mul_1_l (size_of U)) at 3. rewrite <- N.mul_add_distr_r. f_equal.
      enough (n <> 0) by lia. intros ->. unfold two64 in L1. lia. }
  rewrite (proj2 (N.leb_gt _ _)) by lia. reflexivity.
Qed.
End Props.
Print Assumptions C56_history_partial.
Print Assumptions C56_tidy_partial.
Print Assumptions C56_released_partial.
Print Assumptions C56_overflow_refuted.

(** Two resources, an array with one object in it, new with a throwing constructor and without,
    delete with another allocator of the same resource. *)
Definition ex_U := mkTy 0 24 8.
Definition ex_ops : list (op nat) :=
  [ MakeAlloc 0 5; CopyAlloc 1 0; MakeAlloc 2 6; AllocObject 0 ex_U 3 false;
    Construct (0%nat, 48) ex_U 7%nat false; AllocBytes 2 100 None true;
    NewObject 2 ex_U 8%nat false true; NewObject 1 ex_U 9%nat false false; Read (2%nat, 0) ex_U;
    DeleteObject 0 ex_U (2%nat, 0); Destroy (0%nat, 48) ex_U; DeallocObject 1 ex_U (0%nat, 0) 3 ].
Definition ex_outs : list (out nat + exn) :=
  [ inl Nothing; inl Nothing; inl Nothing; inl (Ptr (0%nat, 0)); inl Nothing; inr BadAlloc;
    inr ElemThrow; inl (Ptr (2%nat, 0)); inl (Val 9%nat); inl Nothing; inl Nothing; inl Nothing ].
Example C56_ex : exists a, Forall fits ex_ops /\ ssteps 16 ainit ex_ops ex_outs a /\ ablocks a 0 = None.
Proof.
  eexists. split; [|split].
  - repeat constructor; cbn; try reflexivity; discriminate.
  - eapply ss_cons; [apply s_make; reflexivity|].
    eapply ss_cons; [eapply s_copy; reflexivity|].
    eapply ss_cons; [apply s_make; reflexivity|].
    eapply ss_cons; [eapply s_object; reflexivity|].
    eapply ss_cons.
    { apply s_construct. exists 5%nat, 72, 8. cbn. repeat split; try reflexivity; try discriminate. }
    eapply ss_cons; [eapply s_bytes_fail; reflexivity|].
    eapply ss_cons; [eapply s_new_throws; reflexivity|].
    eapply ss_cons; [eapply s_new; reflexivity|].
    eapply ss_cons; [eapply s_read; reflexivity|].
    eapply ss_cons.
    { eapply s_delete; try reflexivity. intros o Ho. destruct o; [congruence|]. reflexivity. }
    eapply ss_cons; [eapply s_destroy; reflexivity|].
    eapply ss_cons; [|apply ss_nil].
    eapply s_free_object; try reflexivity.
    intros o. cbn. unfold addr_eqb. cbn. now destruct (o =? 48), (o =? 0).
  - reflexivity.
Qed.
Example C56_ex_log :
  match calls 16 ex_ops init with
  | Ok xs s => xs = ex_outs /\ rev (log s) =
      [ Allocated 0 72 8; Constructed (0%nat, 48) ex_U; Allocated 1 24 8; Deallocated 1 24 8;
        Allocated 2 24 8; Constructed (2%nat, 0) ex_U; Destroyed (2%nat, 0) ex_U;
        Deallocated 2 24 8; Destroyed (0%nat, 48) ex_U; Deallocated 0 72 8 ]
  | _ => False
  end.
Proof. vm_compute. auto. Qed.
Example C56_ex_overflow : 0 < size_of ex_U /\ two64 <= 1000000000000000000 * size_of ex_U /\
  1000000000000000000 < two64.
Proof. vm_compute. repeat split; discriminate. Qed.
