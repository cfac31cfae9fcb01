(** Proofs about modification orders. *)
From Coq Require Import List Arith Bool Lia.
From Verif Require Import Base ConcModel WmModel.
Import ListNotations.

Lemma ins_split {V} n (x m : msg V) l : nth_error l n = Some x ->
  exists a b, l = a ++ x :: b /\ length a = n /\ ins n m l = a ++ x :: m :: b.
Proof.
  intros H. destruct (nth_error_split l n H) as (a & b & -> & <-).
  exists a, b. split; [reflexivity|]. split; [reflexivity|]. unfold ins.
  replace (a ++ x :: b) with ((a ++ [x]) ++ b) by (rewrite <- app_assoc; reflexivity).
  replace (S (length a)) with (length (a ++ [x])) by (rewrite app_length; cbn; lia).
  rewrite firstn_app, skipn_app, firstn_all, skipn_all, Nat.sub_diag. cbn [firstn skipn].
  rewrite app_nil_r, app_nil_l, <- app_assoc. reflexivity.
Qed.

Lemma index_of_mid {V} (l r : list (msg V)) m : NoDup (map mid (l ++ m :: r)) ->
  index_of (mid m) (l ++ m :: r) = length l.
Proof.
  induction l as [|x l IH]; cbn [app map index_of length]; intros H.
  - now rewrite Nat.eqb_refl.
  - inversion H as [|? ? Hx Hl]; subst. destruct (Nat.eqb_spec (mid x) (mid m)) as [E|E].
    + exfalso. apply Hx. rewrite E, map_app. cbn. apply in_or_app. right. now left.
    + now rewrite IH.
Qed.

(** A place in the modification order: at its end, or before a message which no read-modify-write operation wrote. *)
Lemma place_split {V} t n (L : loc V) x m : nth_error (mo L) n = Some x -> place t n L = true ->
  exists a b, mo L = a ++ x :: b /\ ins n m (mo L) = a ++ x :: m :: b /\
    index_of (seen L t) (mo L) <= length a /\
    (b = [] \/ exists y b', b = y :: b' /\ mrmw y = false).
Proof.
  intros Hx Hp. destruct (ins_split n x m (mo L) Hx) as (a & b & E & Ha & Ei).
  exists a, b. split; [exact E|]. split; [exact Ei|]. unfold place in Hp.
  apply andb_true_iff in Hp as [H1 H2]. apply Nat.leb_le in H1. split; [lia|].
  destruct b as [|y b]; [now left|]. right. exists y, b. split; [reflexivity|].
  rewrite E in H2. rewrite nth_error_app2 in H2 by lia.
  replace (S n - length a) with 1 in H2 by lia. cbn in H2. now apply negb_true_iff.
Qed.

(** Two ways to split a list. *)
Lemma tail_case {A} (a b l r : list A) x m : a ++ x :: b = l ++ m :: r ->
  (exists c, l = a ++ x :: c /\ b = c ++ m :: r) \/ (exists c, m :: r = c ++ x :: b /\ a = l ++ c).
Proof.
  revert l. induction a as [|z a IH]; intros l E.
  - destruct l as [|w l]; cbn in E.
    + right. exists []. cbn. split; [now rewrite E|reflexivity].
    + injection E as <- E. left. exists l. split; [reflexivity|exact E].
  - destruct l as [|w l]; cbn in E.
    + right. exists (z :: a). cbn. split; [now rewrite E|reflexivity].
    + injection E as <- E. destruct (IH l E) as [(c & -> & ->)|(c & H & ->)]; [left|right]; exists c; auto.
Qed.

Lemma cjoin_l a b u : a u <= cjoin a b u. Proof. unfold cjoin. lia. Qed.
Lemma cjoin_r a b u : b u <= cjoin a b u. Proof. unfold cjoin. lia. Qed.

Definition numbered {V} (L : loc V) : Prop :=
  NoDup (map mid (mo L)) /\ forall m, In m (mo L) -> mid m < fresh L.

Lemma numbered_ins {V} (L : loc V) a x m b sn : numbered L -> mo L = a ++ x :: b -> mid m = fresh L ->
  numbered (Loc (a ++ x :: m :: b) (S (fresh L)) sn).
Proof.
  intros [H1 H2] E Hm. rewrite E in *. split; cbn [mo fresh].
  - replace (a ++ x :: m :: b) with ((a ++ [x]) ++ m :: b) by (rewrite <- app_assoc; reflexivity).
    rewrite map_app. cbn [map]. apply NoDup_Add with (a := mid m) (l := map mid ((a ++ [x]) ++ b)).
    { rewrite map_app. apply Add_app. }
    split.
    { now rewrite <- app_assoc. }
    intros Hin. apply in_map_iff in Hin as (y & Hy & Hin). rewrite <- app_assoc in Hin. apply H2 in Hin. lia.
  - intros y Hy. apply in_app_or in Hy as [Hy|[<-|[<-|Hy]]]; [| |lia|];
      apply Nat.lt_lt_succ_r, H2, in_or_app; cbn; auto.
Qed.

Lemma ins_at {V} n (a b : list (msg V)) x m : length a = n -> ins n m (a ++ x :: b) = a ++ x :: m :: b.
Proof.
  intros <-. destruct (ins_split (length a) x m (a ++ x :: b)) as (a' & b' & E & Hl & ->).
  { rewrite nth_error_app2 by lia. now rewrite Nat.sub_diag. }
  apply app_eq_app in E as (k & [[-> E]|[-> E]]); rewrite app_length in Hl; destruct k; cbn in Hl; try lia;
    rewrite app_nil_r in *; cbn in E; injection E as <-; reflexivity.
Qed.

(** * Running a schedule *)

Inductive sched (Call : Type) := SInv (t : nat) (c : Call) | SAct (t n : nat) | SRet (t : nat).
Arguments SInv {Call} t c.
Arguments SAct {Call} t n.
Arguments SRet {Call} t.

Section Run.
Context {Sh Call Rs VC VR : Type}.
Variable impl : nat -> Call -> wcode Sh Rs.
Variable cview : Sh -> Call -> VC.
Variable rview : Sh -> Rs -> VR.
Variable allowed : list (event VC VR) -> Sh -> nat -> Call -> Prop.
Notation cfg := (wcfg Sh Rs VC VR).

Definition wexec1 (e : sched Call) (c : cfg) : option cfg :=
  match e with
  | SInv t k => match wth c t with
                | None => Some (WCfg (wsh c) (setm (wth c) t (Some (impl t k)))
                                     (whist c ++ [EInv t (cview (wsh c) k)]))
                | Some _ => None
                end
  | SAct t i => match wth c t with
                | Some (WAct a) => match a i (wsh c) with
                                   | WNext s k => Some (WCfg s (setm (wth c) t (Some k)) (whist c))
                                   | WStay s => Some (WCfg s (wth c) (whist c))
                                   | WBad => None
                                   end
                | _ => None
                end
  | SRet t => match wth c t with
              | Some (WRet r) => Some (WCfg (wsh c) (setm (wth c) t None)
                                            (whist c ++ [ERes t (rview (wsh c) r)]))
              | _ => None
              end
  end.
Definition wfits (e : sched Call) (c : cfg) : Prop :=
  match e with SInv t k => allowed (whist c) (wsh c) t k | _ => True end.
Fixpoint wexec (l : list (sched Call)) (c : cfg) (P : cfg -> Prop) : Prop :=
  match l with
  | [] => P c
  | e :: l' => wfits e c /\ match wexec1 e c with Some c' => wexec l' c' P | None => False end
  end.

Definition who (e : sched Call) : nat := match e with SInv t _ | SAct t _ | SRet t => t end.
Lemma wexec_ok l P : forall c0 c, wreach impl cview rview allowed c0 c -> wexec l c P ->
  exists c', wreach impl cview rview allowed c0 c' /\ P c' /\
    forall t, ~ In t (map who l) -> wth c' t = wth c t.
Proof.
  induction l as [|e l IH]; intros c0 c Hc H; cbn [wexec] in H.
  - now exists c.
  - destruct H as [Hf H]. destruct (wexec1 e c) as [c'|] eqn:E; [|easy].
    assert (K : wstep impl cview rview allowed c c' /\
                forall t, t <> who e -> wth c' t = wth c t).
    { destruct c as [s T h]. destruct e as [t k|t i|t]; cbn in E, Hf; cbn [who wth].
      - destruct (T t) eqn:Et; [discriminate|]. injection E as <-. split; [now apply w_inv|].
        intros u Hu. cbn. now rewrite setm_neq.
      - destruct (T t) as [[r|a]|] eqn:Et; try discriminate.
        destruct (a i s) as [s' k|s'|] eqn:Ea; try discriminate; injection E as <-.
        + split; [eapply w_act; eauto|]. intros u Hu. cbn. now rewrite setm_neq.
        + split; [eapply w_stay; eauto|]. reflexivity.
      - destruct (T t) as [[r|a]|] eqn:Et; try discriminate. injection E as <-.
        split; [now apply w_ret|]. intros u Hu. cbn. now rewrite setm_neq. }
    destruct K as [K1 K2]. destruct (IH c0 c') as (c2 & H1 & H2 & H3); [eapply wr_step; eauto|exact H|].
    exists c2. split; [exact H1|]. split; [exact H2|]. intros t Ht. cbn in Ht.
    rewrite H3 by tauto. apply K2. intros ->. tauto.
Qed.
End Run.
