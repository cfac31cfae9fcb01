From Coq Require Import List Arith Bool Lia.
From Verif Require Import Base AlgoModel AlgoSpec.
Import ListNotations.

Lemma nth_error_split3 {A} (a b c : list A) x d : nth_error (a ++ b ++ c ++ x :: d) (length (a ++ b ++ c)) = Some x.
Proof. replace (a ++ b ++ c ++ x :: d) with ((a ++ b ++ c) ++ x :: d) by now rewrite <- !app_assoc. now apply nth_error_app_mid. Qed.

Section Proofs.
Context {X V : Type}.
Implicit Types (l : list X) (m : X -> bool).

Fixpoint index m l : nat :=
  match l with [] => 0 | x :: l' => if m x then 0 else S (index m l') end.

Lemma index_le m l : index m l <= length l.
Proof. induction l as [|x l IH]; cbn; [lia|]. destruct (m x); lia. Qed.
Lemma index_first m l : first_match m l (index m l).
Proof.
  induction l as [|x l (IH1 & IH2)]; cbn [index].
  - split; [intros j x L; lia|now left].
  - destruct (m x) eqn:E.
    + split; [intros j y L; lia|]. right. exists x. auto.
    + split.
      * intros [|j] y L Hy; cbn in Hy; [congruence|]. apply (IH1 j y); auto. lia.
      * destruct IH2 as [IH2|IH2]; [left; cbn; lia|right; exact IH2].
Qed.
Lemma first_match_unique m l i j : first_match m l i -> first_match m l j -> i <= length l -> j <= length l -> i = j.
Proof.
  intros (A1 & A2) (B1 & B2) LI LJ.
  assert (forall a b, (forall j x, j < b -> nth_error l j = Some x -> m x = false) ->
     (a = length l \/ (exists x, nth_error l a = Some x /\ m x = true)) -> b <= length l -> b <= a) as Q.
  { intros a b P [->|(x & Hx & M)] L; [auto|]. destruct (Nat.le_gt_cases b a); auto. rewrite (P a x) in M; congruence. }
  pose proof (Q i j B1 A2 LJ). pose proof (Q j i A1 B2 LI). lia.
Qed.
Lemma index_full m l : index m l = length l <-> (forall x, In x l -> m x = false).
Proof.
  induction l as [|x l IH]; cbn; [split; intros; tauto|]. destruct (m x) eqn:E.
  - split; [discriminate|]. intros H. rewrite (H x) in E; auto. discriminate.
  - split.
    + intros H. assert (index m l = length l) as Q by lia. rewrite IH in Q. intros y [->|I]; auto.
    + intros H. f_equal. apply IH. auto.
Qed.
Lemma index_split m l : index m l < length l ->
  exists x, l = firstn (index m l) l ++ x :: skipn (S (index m l)) l /\ m x = true /\
            forallb (fun y => negb (m y)) (firstn (index m l) l) = true.
Proof.
  induction l as [|x l IH]; cbn [index length]; [lia|]. destruct (m x) eqn:E; intros L.
  - exists x. cbn. auto.
  - destruct (IH ltac:(lia)) as (y & E1 & E2 & E3). exists y.
    change (skipn (S (S (index m l))) (x :: l)) with (skipn (S (index m l)) l). cbn [firstn app forallb].
    rewrite E, E3, <- E1. auto.
Qed.

(** A test which, in the state [l], answers [m] and changes nothing. *)
Definition answers (test : X -> M (list X) bool) m l : Prop := forall x, In x l -> test x l = Ok (m x) l.

Lemma find_loop_ok test m l n i : answers test m l -> i + n = length l ->
  find_loop test n i l = Ok (i + index m (skipn i l)) l.
Proof.
  intros A. revert i. induction n as [|n IH]; intros i L.
  - rewrite skipn_all2 by lia. cbn. unfold ret. f_equal. lia.
  - cbn [find_loop]. unfold bind at 1, read. destruct (nth_error l i) as [x|] eqn:Hx; [|apply nth_error_None in Hx; lia].
    pose proof (nth_error_split_eq l i x Hx) as Sp.
    assert (skipn i l = x :: skipn (S i) l) as Sk.
    { rewrite Sp at 1. rewrite skipn_app, skipn_all2, firstn_length by (rewrite firstn_length; lia).
      replace (i - Nat.min i (length l)) with 0 by lia. reflexivity. }
    rewrite Sk. cbn [index]. unfold bind. rewrite A by (eapply nth_error_In; eauto).
    destruct (m x); [unfold ret; f_equal; lia|]. rewrite IH by lia. f_equal. lia.
Qed.
Lemma find_ok test m l : answers test m l -> find test l = Ok (index m l) l.
Proof.
  intros A. unfold find, bind, size. rewrite (find_loop_ok test m l (length l) 0 A eq_refl). reflexivity.
Qed.

Variable moved : X -> X.

(** The test looks at nothing but the elements [kept0]. *)
Definition steady (test : X -> M (list X) bool) m (kept0 : list X) : Prop :=
  forall x s, test x (kept0 ++ s) = Ok (m x) (kept0 ++ s).

Lemma remove_loop_ok test m kept0 : steady test m kept0 ->
  forall rest kept junk, junk <> [] ->
  exists junk', remove_loop moved test (length rest) (length (kept0 ++ kept ++ junk)) (length (kept0 ++ kept)) (kept0 ++ kept ++ junk ++ rest)
    = Ok (length (kept0 ++ kept ++ filter (fun x => negb (m x)) rest))
         (kept0 ++ kept ++ filter (fun x => negb (m x)) rest ++ junk') /\
    length (kept ++ junk ++ rest) = length (kept ++ filter (fun x => negb (m x)) rest ++ junk').
Proof.
  intros St. induction rest as [|x rest IH]; intros kept junk J.
  - exists junk. cbn [length remove_loop filter]. unfold ret. now rewrite !app_nil_r.
  - cbn [length remove_loop]. unfold bind at 1, read.
    rewrite (nth_error_split3 kept0 kept junk x rest).
    unfold bind at 1. rewrite St. cbn [filter]. destruct (m x) eqn:E; cbn [negb].
    + destruct (IH kept (junk ++ [x])) as (j' & R & L); [now destruct junk|].
      exists j'. rewrite <- app_assoc in R, L. cbn [app] in R, L. split; [|exact L].
      rewrite <- R. f_equal. rewrite !app_length. cbn. lia.
    + destruct junk as [|j js]; [congruence|].
      destruct (IH (kept ++ [x]) (js ++ [moved x])) as (j' & R & L); [now destruct js|].
      exists j'.
      unfold bind at 1, write. rewrite (proj2 (Nat.ltb_lt _ _)) by (rewrite !app_length; cbn; lia).
      replace (upd (kept0 ++ kept ++ (j :: js) ++ x :: rest) (length (kept0 ++ kept)) x)
        with ((kept0 ++ kept) ++ x :: (js ++ x :: rest))
        by (rewrite <- (upd_app_mid (kept0 ++ kept) (js ++ x :: rest) j x (length (kept0 ++ kept)) eq_refl); now rewrite <- !app_assoc).
      unfold bind. rewrite (proj2 (Nat.ltb_lt _ _)) by (rewrite !app_length; cbn; rewrite app_length; cbn; lia).
      replace (upd ((kept0 ++ kept) ++ x :: js ++ x :: rest) (length (kept0 ++ kept ++ j :: js)) (moved x))
        with (kept0 ++ (kept ++ [x]) ++ (js ++ [moved x]) ++ rest).
      2:{ replace ((kept0 ++ kept) ++ x :: js ++ x :: rest) with ((kept0 ++ kept ++ x :: js) ++ x :: rest) by (now rewrite <- !app_assoc).
          rewrite (upd_app_mid (kept0 ++ kept ++ x :: js) rest x (moved x)) by (rewrite !app_length; reflexivity).
          now rewrite <- !app_assoc. }
      split.
      * replace (S (length (kept0 ++ kept ++ j :: js))) with (length (kept0 ++ (kept ++ [x]) ++ js ++ [moved x])) by (rewrite !app_length; cbn; lia).
        replace (S (length (kept0 ++ kept))) with (length (kept0 ++ kept ++ [x])) by (rewrite !app_length; cbn; lia).
        rewrite R. rewrite <- !app_assoc. cbn [app]. reflexivity.
      * rewrite <- !app_assoc in L. cbn [app] in L. rewrite !app_length in *. cbn [length] in *. rewrite !app_length in *. cbn [length] in *. lia.
Qed.

Lemma filter_none m l : forallb (fun y => negb (m y)) l = true -> filter (fun y => negb (m y)) l = l.
Proof. induction l as [|x l IH]; cbn; [auto|]. destruct (m x); cbn; [discriminate|]. intros H. now rewrite IH. Qed.

Lemma remove_ok test m l : (forall x s, test x s = Ok (m x) s) ->
  exists junk, remove moved test l = Ok (length (filter (fun x => negb (m x)) l)) (filter (fun x => negb (m x)) l ++ junk) /\
    length l = length (filter (fun x => negb (m x)) l ++ junk).
Proof.
  intros A. unfold remove, bind at 1, size. unfold bind.
  rewrite (find_loop_ok test m l (length l) 0) by (intros; [intros x _; apply A|reflexivity] || (intros x _; apply A) || reflexivity).
  cbn [skipn Nat.add]. pose proof (index_le m l) as IL. destruct (Nat.eqb_spec (index m l) (length l)) as [E|E].
  - exists []. rewrite index_full in E. 
    assert (filter (fun x => negb (m x)) l = l) as F.
    { apply filter_none. apply forallb_forall. intros x I. now rewrite (E x I). }
    rewrite F, app_nil_r. split; [|reflexivity]. unfold ret. f_equal. now apply index_full.
  - destruct (index_split m l ltac:(lia)) as (x & S1 & S2 & S3).
    set (i := index m l) in *. set (pre := firstn i l) in *. set (rest := skipn (S i) l) in *.
    assert (length pre = i) as LP by (unfold pre; rewrite firstn_length; lia).
    assert (length l - S i = length rest) as LR by (unfold rest; rewrite skipn_length; reflexivity).
    destruct (remove_loop_ok test m [] (fun x s => A x s) rest pre [x] ltac:(discriminate)) as (j & R & L).
    cbn [app] in R, L. rewrite LR. rewrite app_length in R. cbn [length] in R. rewrite LP, Nat.add_1_r in R.
    clearbody pre rest i. subst l.
    assert (filter (fun x => negb (m x)) (pre ++ x :: rest) = pre ++ filter (fun x => negb (m x)) rest) as F.
    { rewrite filter_app. cbn [filter]. rewrite S2. cbn [negb]. now rewrite (filter_none m pre S3). }
    exists j. rewrite F, <- app_assoc. split; [exact R|exact L].
Qed.

(** A test which throws for some element. *)
Lemma find_loop_stop test p m : (forall x s, test x s = match p x with Some b => Ok b s | None => Throw ElemThrow s end) ->
  forall pre x rest a n, (forall y, In y pre -> p y = Some (m y)) -> p x = None -> length pre < n ->
  find_loop test n (length a) (a ++ pre ++ x :: rest)
    = if existsb m pre then Ok (length a + index m pre) (a ++ pre ++ x :: rest)
      else Throw ElemThrow (a ++ pre ++ x :: rest).
Proof.
  intros A. induction pre as [|y pre IH]; intros x rest a n Hp Hx Hn; (destruct n as [|n]; [cbn in Hn; lia|]);
    cbn [find_loop app existsb index]; unfold bind at 1, read; rewrite nth_error_app_mid by reflexivity;
    unfold bind at 1; rewrite A.
  - now rewrite Hx.
  - rewrite (Hp y (or_introl eq_refl)). destruct (m y); cbn [orb].
    + unfold ret. f_equal. lia.
    + pose proof (IH x rest (a ++ [y]) n (fun z I => Hp z (or_intror I)) Hx ltac:(cbn in Hn; lia)) as IH'.
      rewrite app_length, Nat.add_1_r, <- app_assoc in IH'. cbn [app length] in IH'. rewrite IH'.
      destruct (existsb m pre); [f_equal; lia|reflexivity].
Qed.

Notation keeps m := (filter (fun x => negb (m x))).
Notation leaves m := (map (fun x => if m x then x else moved x)).

Lemma remove_loop_stop test p m : (forall x s, test x s = match p x with Some b => Ok b s | None => Throw ElemThrow s end) ->
  forall pre x rest kept junk n, (forall y, In y pre -> p y = Some (m y)) -> p x = None -> length pre < n -> junk <> [] ->
  remove_loop moved test n (length (kept ++ junk)) (length kept) (kept ++ junk ++ pre ++ x :: rest)
    = Throw ElemThrow (kept ++ keeps m pre ++ skipn (length (keeps m pre)) (junk ++ leaves m pre) ++ x :: rest).
Proof.
  intros A. induction pre as [|y pre IH]; intros x rest kept junk n Hp Hx Hn J; (destruct n as [|n]; [cbn in Hn; lia|]);
    cbn [remove_loop app filter map length]; unfold bind at 1, read.
  - replace (kept ++ junk ++ x :: rest) with ((kept ++ junk) ++ x :: rest) by now rewrite <- app_assoc.
    rewrite nth_error_app_mid by reflexivity. unfold bind at 1. rewrite A, Hx, app_nil_r. cbn [skipn].
    now rewrite <- app_assoc.
  - replace (kept ++ junk ++ y :: pre ++ x :: rest) with ((kept ++ junk) ++ y :: pre ++ x :: rest) by now rewrite <- app_assoc.
    rewrite nth_error_app_mid by reflexivity. unfold bind at 1. rewrite A, (Hp y (or_introl eq_refl)).
    assert (Hp' : forall z, In z pre -> p z = Some (m z)) by (intros z I; apply Hp; now right).
    destruct (m y); cbn [negb].
    + pose proof (IH x rest kept (junk ++ [y]) n Hp' Hx ltac:(cbn in Hn; lia) ltac:(now destruct junk)) as IH'.
      rewrite <- !app_assoc in IH'. cbn [app] in IH'. rewrite <- app_assoc. rewrite <- IH'. f_equal.
      rewrite !app_length. cbn. lia.
    + destruct junk as [|j js]; [congruence|].
      pose proof (IH x rest (kept ++ [y]) (js ++ [moved y]) n Hp' Hx ltac:(cbn in Hn; lia) ltac:(now destruct js)) as IH'.
      unfold bind at 1, write. rewrite (proj2 (Nat.ltb_lt _ _)) by (rewrite !app_length; cbn; lia).
      replace (upd ((kept ++ j :: js) ++ y :: pre ++ x :: rest) (length kept) y)
        with ((kept ++ y :: js) ++ y :: pre ++ x :: rest)
        by (rewrite <- !app_assoc; cbn [app]; now rewrite upd_app_mid).
      unfold bind. rewrite (proj2 (Nat.ltb_lt _ _)) by (rewrite !app_length; cbn; lia).
      rewrite (upd_app_mid (kept ++ y :: js)) by (rewrite !app_length; reflexivity).
      replace ((kept ++ y :: js) ++ moved y :: pre ++ x :: rest)
        with ((kept ++ [y]) ++ (js ++ [moved y]) ++ pre ++ x :: rest) by (now rewrite <- !app_assoc).
      replace (S (length (kept ++ j :: js))) with (length ((kept ++ [y]) ++ js ++ [moved y])) by (rewrite !app_length; cbn; lia).
      replace (S (length kept)) with (length (kept ++ [y])) by (rewrite !app_length; cbn; lia).
      rewrite IH'. f_equal. rewrite <- !app_assoc. cbn [app length skipn]. reflexivity.
Qed.

Lemma index_exists m pre : existsb m pre = true -> index m pre < length pre.
Proof.
  intros H. apply existsb_exists in H. destruct H as (y & I & E). pose proof (index_le m pre).
  destruct (Nat.eq_dec (index m pre) (length pre)) as [F|F]; [|lia].
  rewrite index_full in F. rewrite (F y I) in E. discriminate.
Qed.

Lemma remove_stop test p m pre x rest : (forall x s, test x s = match p x with Some b => Ok b s | None => Throw ElemThrow s end) ->
  (forall y, In y pre -> p y = Some (m y)) -> p x = None ->
  remove moved test (pre ++ x :: rest) = Throw ElemThrow (interrupted moved m pre (x :: rest)).
Proof.
  intros A Hp Hx. unfold remove, bind at 1, size. unfold bind.
  pose proof (find_loop_stop test p m A pre x rest [] (length (pre ++ x :: rest)) Hp Hx
                ltac:(rewrite app_length; cbn; lia)) as F. cbn [app length Nat.add] in F. rewrite F. clear F.
  destruct (existsb m pre) eqn:E.
  - pose proof (index_exists m pre E) as L. destruct (index_split m pre L) as (y & S1 & S2 & S3).
    set (i := index m pre) in *. set (a := firstn i pre) in *. set (b := skipn (S i) pre) in *.
    assert (La : length a = i) by (unfold a; rewrite firstn_length; lia).
    rewrite (proj2 (Nat.eqb_neq _ _)) by (rewrite app_length; cbn; lia).
    clearbody a b i. subst pre. 
    pose proof (remove_loop_stop test p m A b x rest a [y] (length (a ++ y :: b ++ x :: rest) - S i)
      (fun z I => Hp z (in_or_app a (y :: b) z (or_intror (or_intror I)))) Hx) as R.
    rewrite (app_length a [y]), La in R. cbn [length] in R. rewrite Nat.add_1_r in R. rewrite <- app_assoc. cbn [app] in *. rewrite R.
    + f_equal. unfold interrupted. rewrite filter_app, map_app. cbn [filter map]. rewrite S2. cbn [negb].
      rewrite (filter_none m a S3), app_length, skipn_app.
      rewrite (skipn_all2 (leaves m a)) by (rewrite map_length; lia). rewrite map_length. replace (length a + length (keeps m b) - length a) with (length (keeps m b)) by lia.
      now rewrite <- app_assoc.
    + rewrite !app_length in *. cbn [length] in *. rewrite ?app_length in *. cbn [length] in *. lia.
    + discriminate.
  - f_equal. unfold interrupted.
    assert (F : filter (fun x => negb (m x)) pre = pre).
    { apply filter_none. apply forallb_forall. intros y I. destruct (m y) eqn:Ey; [|reflexivity].
      assert (existsb m pre = true) by (apply existsb_exists; eauto). congruence. }
    rewrite F, skipn_all2 by (rewrite map_length; lia). reflexivity.
Qed.
End Proofs.
