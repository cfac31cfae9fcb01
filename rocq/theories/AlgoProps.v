(** Theorems about the algorithms. *)
From Coq Require Import List Arith Bool Lia.
From Verif Require Import Base AlgoModel AlgoSpec AlgoProofs.
Import ListNotations.

(** * C45 *)
Section Tests.
Context {X V : Type} (eqb : X -> V -> bool) (moved : X -> X) (part : X -> V).
Lemma equals_outside v x s : equals eqb part (Outside v) x s = Ok (eqb x v) s. Proof. reflexivity. Qed.
Lemma call_pure m x (s : list X) : call (fun x => Some (m x)) x s = Ok (m x) s. Proof. reflexivity. Qed.
Lemma equals_part i y l : nth_error l i = Some y -> answers (equals eqb part (PartOf i)) (fun x => eqb x (part y)) l.
Proof. intros H x _. unfold equals, deref, bind, read. now rewrite H. Qed.

Lemma pointer_ok test (m : X -> bool) l : answers test m l ->
  pointer (find test) l = Ok (if index m l =? length l then None else Some (index m l)) l.
Proof.
  intros A. unfold pointer, bind. rewrite (find_ok test m l A). unfold size. destruct (Nat.eqb_spec (index m l) (length l)); [reflexivity|].
  pose proof (index_le m l). unfold read. destruct (nth_error l (index m l)) eqn:E; [reflexivity|]. apply nth_error_None in E. lia.
Qed.
Lemma erase_found_ok test (m : X -> bool) l : answers test m l ->
  erase_found (find test) l = Ok (existsb m l) (without_first m l).
Proof.
  intros A. unfold erase_found, bind. rewrite (find_ok test m l A). unfold size.
  assert (existsb m l = negb (index m l =? length l)) as ->.
  { clear A. induction l as [|x l IH]; [reflexivity|]. cbn. destruct (m x); [reflexivity|]. exact IH. }
  destruct (Nat.eqb_spec (index m l) (length l)) as [E|E].
  - assert (without_first m l = l) as ->; [|reflexivity].
    clear A. induction l as [|x l IH]; [reflexivity|]. cbn in *. destruct (m x); [discriminate|]. f_equal. apply IH. lia.
  - pose proof (index_le m l). unfold erase. rewrite (proj2 (Nat.ltb_lt _ _)) by lia. cbn [negb]. unfold ret. f_equal.
    clear A E H. induction l as [|x l IH]; [reflexivity|]. cbn [index without_first]. destruct (m x); [reflexivity|].
    change (skipn (S (S (index m l))) (x :: l)) with (skipn (S (index m l)) l). cbn [firstn app]. now rewrite IH.
Qed.
Lemma erase_removed_ok test (m : X -> bool) l : (forall x s, test x s = Ok (m x) s) ->
  erase_removed (remove moved test) l = Ok (length (filter m l)) (filter (fun x => negb (m x)) l).
Proof.
  intros A. destruct (remove_ok moved test m l A) as (j & R & L). unfold erase_removed, bind. rewrite R. unfold size, erase_range.
  rewrite <- L. rewrite Nat.leb_refl, (proj2 (Nat.leb_le _ _)) by (rewrite L, app_length; lia). cbn [andb].
  rewrite firstn_app, firstn_all, Nat.sub_diag. cbn [firstn]. rewrite app_nil_r, skipn_all2 by lia. rewrite app_nil_r.
  unfold ret. f_equal. clear. induction l as [|x l IH]; [reflexivity|]. cbn [filter length].
  assert (length (filter (fun x => negb (m x)) l) <= length l) by (clear; induction l as [|y l IH]; cbn; [lia|]; destruct (m y); cbn; lia).
  destruct (m x); cbn [negb length]; lia.
Qed.
End Tests.

Theorem C45_find {X V} (eqb : X -> V -> bool) (part : X -> V) (v : V) (m : X -> bool) (l : list X) :
  (exists i, qfind eqb part (Outside v) l = Ok i l /\ first_match (fun x => eqb x v) l i /\
     pfind eqb part (Outside v) l = Ok (if i =? length l then None else Some i) l) /\
  (exists i, qfind_if (fun x => Some (m x)) l = Ok i l /\ first_match m l i /\
     pfind_if (fun x => Some (m x)) l = Ok (if i =? length l then None else Some i) l).
Proof.
  assert (answers (equals eqb part (Outside v)) (fun x => eqb x v) l) as A1 by (intros x _; reflexivity).
  assert (answers (call (fun x => Some (m x))) m l) as A2 by (intros x _; reflexivity).
  split; (eexists; split; [apply find_ok; eassumption|split; [apply index_first|]]).
  - apply (pointer_ok _ _ l A1).
  - apply (pointer_ok _ _ l A2).
Qed.
Print Assumptions C45_find.
Example C45_find_example :
  qfind Nat.eqb (fun x => x) (Outside 3) [5; 3; 4; 3] = Ok 1 [5; 3; 4; 3] /\
  pfind Nat.eqb (fun x => x) (Outside 9) [5; 3; 4; 3] = Ok None [5; 3; 4; 3].
Proof. split; reflexivity. Qed.

Theorem C45_quantifiers {X} (m : X -> bool) (l : list X) :
  (exists b, qall_of (fun x => Some (m x)) l = Ok b l /\ (b = true <-> forall x, In x l -> m x = true)) /\
  (exists b, qany_of (fun x => Some (m x)) l = Ok b l /\ (b = true <-> exists x, In x l /\ m x = true)) /\
  (exists b, qnone_of (fun x => Some (m x)) l = Ok b l /\ (b = true <-> forall x, In x l -> m x = false)).
Proof.
  assert (answers (call (fun x => Some (m x))) m l) as A by (intros x _; reflexivity).
  assert (answers (call (negated (fun x => Some (m x)))) (fun x => negb (m x)) l) as A' by (intros x _; reflexivity).
  unfold qall_of, qany_of, qnone_of, bind. rewrite (find_ok _ _ _ A), (find_ok _ _ _ A'). unfold size, ret.
  split; [|split]; (eexists; split; [reflexivity|]).
  - rewrite Nat.eqb_eq, index_full. split; intros H x I; specialize (H x I); destruct (m x); auto; discriminate.
  - rewrite negb_true_iff, Nat.eqb_neq, index_full. split.
    + intros H. destruct (existsb m l) eqn:E; [now apply existsb_exists in E|]. exfalso. apply H. intros x I.
      destruct (m x) eqn:M; [|reflexivity]. assert (existsb m l = true) by (apply existsb_exists; eauto). congruence.
    + intros (x & I & M) H. rewrite (H x I) in M. discriminate.
  - rewrite Nat.eqb_eq, index_full. reflexivity.
Qed.
Print Assumptions C45_quantifiers.
Example C45_quantifiers_example :
  qall_of (identity (fun b => b)) [true; true] = Ok true [true; true] /\
  qany_of (identity (fun b => b)) [false; true] = Ok true [false; true] /\
  qnone_of (identity (fun b : bool => b)) [] = Ok true [].
Proof. repeat split; reflexivity. Qed.

Theorem C45_erase {X V} (eqb : X -> V -> bool) (moved : X -> X) (part : X -> V) (v : V) (m : X -> bool) (l : list X) :
  erase_first eqb part (Outside v) l = Ok (existsb (fun x => eqb x v) l) (without_first (fun x => eqb x v) l) /\
  erase_first_if (fun x => Some (m x)) l = Ok (existsb m l) (without_first m l) /\
  erase_all eqb moved part (Outside v) l
    = Ok (length (filter (fun x => eqb x v) l)) (filter (fun x => negb (eqb x v)) l) /\
  erase_all_if moved (fun x => Some (m x)) l = Ok (length (filter m l)) (filter (fun x => negb (m x)) l).
Proof.
  repeat split.
  - apply erase_found_ok. intros x _. reflexivity.
  - apply erase_found_ok. intros x _. reflexivity.
  - apply (erase_removed_ok moved _ (fun x => eqb x v)). reflexivity.
  - apply erase_removed_ok. reflexivity.
Qed.
Print Assumptions C45_erase.
Example C45_erase_example :
  erase_all Nat.eqb (fun _ => 0) (fun x => x) (Outside 3) [5; 3; 4; 3; 7] = Ok 2 [5; 4; 7] /\
  erase_first Nat.eqb (fun x => x) (Outside 3) [5; 3; 4; 3; 7] = Ok true [5; 4; 3; 7].
Proof. split; reflexivity. Qed.

(** A predicate which throws: erase_first_if has found its element before that or changes
    nothing; erase_all_if erases nothing, and what it leaves is known exactly. *)
Theorem C45_throwing {X} (moved : X -> X) (p : X -> option bool) (m : X -> bool) (pre rest : list X) (x : X) :
  (forall y, In y pre -> p y = Some (m y)) -> p x = None ->
  let l := pre ++ x :: rest in
  erase_first_if p l = (if existsb m pre then Ok true (without_first m pre ++ x :: rest) else Throw ElemThrow l) /\
  erase_all_if moved p l = Throw ElemThrow (interrupted moved m pre (x :: rest)) /\
  length (interrupted moved m pre (x :: rest)) = length l.
Proof.
  intros Hp Hx l.
  assert (forall x s, call p x s = match p x with Some b => Ok b s | None => Throw ElemThrow s end) as A.
  { intros z s'. unfold call. destruct (p z); reflexivity. }
  repeat apply conj.
  - destruct (existsb m pre) eqn:E.
    + assert (F : find (call p) l = Ok (index m pre) l).
      { unfold find, bind, size. pose proof (find_loop_stop (call p) p m A pre x rest [] (length l) Hp Hx
          ltac:(unfold l; rewrite app_length; cbn; lia)) as F. rewrite E in F. exact F. }
      pose proof (index_exists m pre E) as L. unfold erase_first_if, qfind_if, erase_found, bind. rewrite F. unfold size, erase.
      assert (LL : length pre < length l) by (unfold l; rewrite app_length; cbn; lia).
      rewrite (proj2 (Nat.eqb_neq _ _)) by lia. rewrite (proj2 (Nat.ltb_lt _ _)) by lia. unfold ret. f_equal.
      unfold l. rewrite firstn_app, skipn_app. replace (index m pre - length pre) with 0 by lia.
      replace (S (index m pre) - length pre) with 0 by lia. rewrite firstn_O, skipn_O, app_nil_r, app_assoc. f_equal.
      clear. induction pre as [|z l IH]; [reflexivity|]. cbn [index without_first]. destruct (m z); [reflexivity|].
      change (skipn (S (S (index m l))) (z :: l)) with (skipn (S (index m l)) l). cbn [firstn app]. now rewrite IH.
    + unfold erase_first_if, qfind_if, erase_found, find, bind, size.
      pose proof (find_loop_stop (call p) p m A pre x rest [] (length l) Hp Hx
          ltac:(unfold l; rewrite app_length; cbn; lia)) as F. rewrite E in F. cbn [app length] in F.
      fold l in F. now rewrite F.
  - unfold erase_all_if, erase_removed, bind. unfold l. now rewrite (remove_stop moved (call p) p m pre x rest A Hp Hx).
  - unfold l, interrupted. rewrite !app_length, skipn_length, map_length.
    assert (length (filter (fun x => negb (m x)) pre) <= length pre).
    { clear. induction pre as [|y l IH]; cbn; [lia|]. destruct (m y); cbn; lia. }
    lia.
Qed.
Print Assumptions C45_throwing.
Example C45_throwing_example :
  let p x := if x =? 4 then None else Some (x =? 3) in
  erase_all_if (fun _ => 0) p [5; 3; 6; 4; 3] = Throw ElemThrow [5; 6; 0; 4; 3] /\
  interrupted (fun _ => 0) (fun x => x =? 3) [5; 3; 6] [4; 3] = [5; 6; 0; 4; 3].
Proof. split; reflexivity. Qed.

(** * C64: values which are parts of the container *)

(** Searching and erase_first are done with the value before anything is moved. *)
Theorem C64_search_partial {X V} (eqb : X -> V -> bool) (part : X -> V) (i : nat) (y : X) (l : list X) :
  nth_error l i = Some y ->
  (exists k, qfind eqb part (PartOf i) l = Ok k l /\ first_match (fun x => eqb x (part y)) l k /\
     pfind eqb part (PartOf i) l = Ok (if k =? length l then None else Some k) l) /\
  erase_first eqb part (PartOf i) l
    = Ok (existsb (fun x => eqb x (part y)) l) (without_first (fun x => eqb x (part y)) l).
Proof.
  intros H. pose proof (equals_part eqb part i y l H) as A. split.
  - exists (index (fun x => eqb x (part y)) l). split; [now apply find_ok|]. split; [apply index_first|]. now apply pointer_ok.
  - now apply erase_found_ok.
Qed.
Print Assumptions C64_search_partial.
Example C64_search_example :
  erase_first Nat.eqb (fun x => x) (PartOf 2) [5; 3; 4; 3; 4] = Ok true [5; 3; 3; 4].
Proof. reflexivity. Qed.

(** erase_all with a part of the first matching element: when the next element [y] is kept it is
    moved over the value, and from there on the elements equal to [y] are erased
    instead. *)
Theorem C64_erase_all_refuted {X V} (eqb : X -> V -> bool) (moved : X -> X) (part : X -> V) (pre rest : list X) (x y : X) :
  (forall z, In z pre -> eqb z (part x) = false) -> eqb x (part x) = true -> eqb y (part x) = false ->
  let l := pre ++ x :: y :: rest in
  (exists n, erase_all eqb moved part (PartOf (length pre)) l
     = Ok n (pre ++ y :: filter (fun z => negb (eqb z (part y))) rest)) /\
  filter (fun z => negb (eqb z (part x))) l = pre ++ y :: filter (fun z => negb (eqb z (part x))) rest.
Proof.
  intros P E1 E2 l.
  assert (nth_error l (length pre) = Some x) as Hx by (apply nth_error_app_mid; reflexivity).
  pose proof (equals_part eqb part _ _ _ Hx) as A.
  assert (index (fun z => eqb z (part x)) l = length pre) as IX.
  { unfold l. clear - P E1. induction pre as [|z pre IH]; cbn; [now rewrite E1|]. rewrite (P z) by (left; reflexivity).
    f_equal. apply IH. intros w I. apply P. now right. }
  split.
  - unfold erase_all, erase_removed, remove, bind at 1 2, size. unfold bind at 1.
    rewrite (find_loop_ok _ _ l (length l) 0 A eq_refl). cbn [skipn Nat.add]. rewrite IX.
    assert (length l = length pre + S (S (length rest))) as LL by (unfold l; rewrite app_length; reflexivity).
    rewrite (proj2 (Nat.eqb_neq _ _)) by lia.
    replace (length l - S (length pre)) with (S (length rest)) by lia. cbn [remove_loop].
    assert (nth_error l (S (length pre)) = Some y) as Hy.
    { unfold l. replace (pre ++ x :: y :: rest) with ((pre ++ [x]) ++ y :: rest) by now rewrite <- app_assoc.
      apply nth_error_app_mid. rewrite app_length. cbn. lia. }
    unfold bind at 1, read at 1. rewrite Hy. unfold bind at 1. rewrite A by (eapply nth_error_In; eauto). rewrite E2.
    unfold bind at 1 2, write. rewrite (proj2 (Nat.ltb_lt _ _)) by lia. rewrite (proj2 (Nat.ltb_lt _ _)) by (rewrite upd_length; lia).
    assert (upd (upd l (length pre) y) (S (length pre)) (moved y) = (pre ++ [y]) ++ moved y :: rest) as U.
    { unfold l. rewrite (upd_app_mid pre (y :: rest) x y) by reflexivity.
      replace (pre ++ y :: y :: rest) with ((pre ++ [y]) ++ y :: rest) by now rewrite <- app_assoc.
      apply upd_app_mid. rewrite app_length. cbn. lia. }
    rewrite U.
    assert (steady (equals eqb part (PartOf (length pre))) (fun z => eqb z (part y)) (pre ++ [y])) as St.
    { intros z s. unfold equals, deref, bind, read. rewrite <- app_assoc. cbn [app]. now rewrite (nth_error_app_mid pre s y) by reflexivity. }
    destruct (remove_loop_ok moved _ _ (pre ++ [y]) St rest [] [moved y] ltac:(discriminate)) as (j & R & L).
    cbn [app] in R, L. rewrite app_nil_r in R.
    replace (length ((pre ++ [y]) ++ [moved y])) with (S (S (length pre))) in R by (rewrite !app_length; cbn; lia).
    replace (length (pre ++ [y])) with (S (length pre)) in R by (rewrite !app_length; cbn; lia).
    rewrite R. unfold bind, erase_range. cbv beta iota.
    set (F := filter (fun z => negb (eqb z (part y))) rest) in *.
    rewrite Nat.leb_refl, (proj2 (Nat.leb_le _ _)) by (rewrite !app_length; lia). cbn [andb].
    rewrite skipn_all, app_nil_r.
    replace ((pre ++ [y]) ++ F ++ j) with (((pre ++ [y]) ++ F) ++ j) by now rewrite <- !app_assoc.
    rewrite firstn_app, firstn_all, Nat.sub_diag. cbn [firstn]. rewrite app_nil_r.
    eexists. unfold ret. f_equal. now rewrite <- app_assoc.
  - unfold l. rewrite filter_app. cbn [filter]. rewrite E1, E2. cbn [negb]. f_equal. clear - P.
    induction pre as [|z pre IH]; [reflexivity|]. cbn. rewrite (P z) by (left; reflexivity). cbn. f_equal. apply IH. intros w I. apply P. now right.
Qed.
Print Assumptions C64_erase_all_refuted.
Example C64_erase_all_example :
  erase_all Nat.eqb (fun x => x) (fun x => x) (PartOf 0) [1; 2; 1; 2] = Ok 2 [2; 1].
Proof. reflexivity. Qed.
