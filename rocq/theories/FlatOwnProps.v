(** C112: flat_map and flat_set called with arguments which refer into themselves. *)
From Coq Require Import List Arith NArith Bool Lia.
From Verif Require Import Base SeqSpec VecCommon FlatModel FlatSpec FlatProofs FlatProps
  FlatExnModel FlatExnSpec FlatExnProofs SmallFlatModel SmallFlatSpec SmallFlatProofs
  FlatOwnModel FlatOwnSpec FlatOwnProofs.
From Verif Require StaticVectorModel StaticVectorSpec SmallVectorModel SmallVectorSpec.
Import ListNotations.

(** * std::vector *)

(** insert with an argument which refers to element [x] of the map or set does what it does
    with an argument of its own: see [inserted] in FlatSpec.v. *)
Theorem C112_std_vector_insert_partial :
  forall (E K Q C T : Type) (key : E -> K) (lt : C -> K -> K -> bool) (kq : C -> K -> Q -> bool)
    (qk : C -> Q -> K -> bool) (conv : Q -> K) (q : E -> Q) (make : E -> E),
  (forall c, strict_weak_order (lt c)) ->
  (forall c k q, kq c k q = lt c k (conv q)) ->
  (forall c k q, qk c q k = lt c (conv q) k) ->
  (forall e, conv (q e) = key (make e)) ->
  forall c l m j x,
  enumerates key lt c l m -> nth_error l j = Some x ->
  exists l' m' (a : fret T),
    fobserve ((let* r := insert_own key kq qk (vec_cont E) vec_emplace_own q make j in
               ret (AIns (fst r) (snd r))) (mkFlat c l)) = Some (mkFlat c l', a) /\
    inserted key lt None c l l' m m' (make x) a /\ enumerates key lt c l' m'.
Proof.
  intros E K Q C T key lt kq qk conv q make W Hkq Hqk Hmk c l m j x EN Hx.
  destruct (insert_right (T := T) key lt kq qk conv W Hkq Hqk q make Hmk (vec_cont E) None _ (vec_conforms E)
    vec_emplace_own c l l m j x eq_refl EN Hx) as (t' & l' & m' & a & H1 & H2 & H3 & H4).
  - intros _ p _. now apply vec_own.
  - subst t'. exists l', m', a. auto.
Qed.
Print Assumptions C112_std_vector_insert_partial.

(** operator[] with a key which is part of an element of the same map. *)
Theorem C112_std_vector_index_partial :
  forall (K T Q C : Type) (lt : C -> K -> K -> bool) (kq : C -> K -> Q -> bool)
    (qk : C -> Q -> K -> bool) (conv : Q -> K) (dflt : T) (sel : K * T -> Q),
  (forall c, strict_weak_order (lt c)) ->
  (forall c k q, kq c k q = lt c k (conv q)) ->
  (forall c k q, qk c q k = lt c (conv q) k) ->
  forall c l m j x,
  enumerates fst lt c l m -> nth_error l j = Some x ->
  let cont := vec_cont (K * T) in
  exists l' m' a,
    fobserve ((let* i := index_own kq qk cont vec_emplace_own conv dflt sel j in
               let* v := second cont i in ret (AVal v)) (mkFlat c l)) = Some (mkFlat c l', a) /\
    mmeans lt conv dflt None c l l' m (MIndex (sel x)) m' a /\ enumerates fst lt c l' m'.
Proof.
  intros K T Q C lt kq qk conv dflt sel W Hkq Hqk c l m j x EN Hx.
  destruct (index_right lt kq qk conv dflt W Hkq Hqk (vec_cont (K * T)) None _ (vec_conforms (K * T))
    vec_emplace_own sel c l l m j x eq_refl EN Hx) as (t' & l' & m' & a & H1 & H2 & H3 & H4).
  - intros _ p _. now rewrite (vec_own l p j (fun e => (conv (sel e), dflt)) x Hx).
  - subst t'. exists l', m', a. auto.
Qed.
Print Assumptions C112_std_vector_index_partial.

(** * static_vector *)

(** The same over static_vector, if nothing is put in because an element of that class is
    there or because there is no room, or if the element referred to is less than the key of
    the new element. *)
Theorem C112_static_vector_insert_partial :
  forall (E K Q C T : Type) (key : E -> K) (lt : C -> K -> K -> bool) (kq : C -> K -> Q -> bool)
    (qk : C -> Q -> K -> bool) (conv : Q -> K) (q : E -> Q) (make : E -> E)
    (moved : E -> E) (de : E) (Capacity : nat),
  (forall c, strict_weak_order (lt c)) ->
  (forall c k q, kq c k q = lt c k (conv q)) ->
  (forall c k q, qk c q k = lt c (conv q) k) ->
  (forall e, conv (q e) = key (make e)) ->
  (N.of_nat Capacity < two63)%N ->
  forall c t l m j x,
  sv_holds E Capacity t l -> enumerates key lt c l m -> nth_error l j = Some x ->
  m (conv (q x)) <> None \/ length l = Capacity \/ lt c (key x) (conv (q x)) = true ->
  exists t' l' m' (a : fret T),
    fobserve ((let* r := insert_own key kq qk (sv_cont E moved de Capacity)
                           (sv_emplace_own moved Capacity) q make j in
               ret (AIns (fst r) (snd r))) (mkFlat c t)) = Some (mkFlat c t', a) /\
    inserted key lt (Some Capacity) c l l' m m' (make x) a /\
    sv_holds E Capacity t' l' /\ enumerates key lt c l' m'.
Proof.
  intros E K Q C T key lt kq qk conv q make moved de Capacity W Hkq Hqk Hmk Hcap c t l m j x R EN Hx Hc.
  apply (insert_right (T := T) key lt kq qk conv W Hkq Hqk q make Hmk _ _ _
    (sv_conforms E moved de Capacity Hcap) (sv_emplace_own moved Capacity) c t l m j x R EN Hx).
  intros Em p Hb. eapply sv_right; eauto. tauto.
Qed.
Print Assumptions C112_static_vector_insert_partial.

Theorem C112_static_vector_index_partial :
  forall (K T Q C : Type) (lt : C -> K -> K -> bool) (kq : C -> K -> Q -> bool)
    (qk : C -> Q -> K -> bool) (conv : Q -> K) (dflt : T) (sel : K * T -> Q)
    (moved : K * T -> K * T) (de : K * T) (Capacity : nat),
  (forall c, strict_weak_order (lt c)) ->
  (forall c k q, kq c k q = lt c k (conv q)) ->
  (forall c k q, qk c q k = lt c (conv q) k) ->
  (N.of_nat Capacity < two63)%N ->
  forall c t l m j x,
  sv_holds (K * T) Capacity t l -> enumerates fst lt c l m -> nth_error l j = Some x ->
  m (conv (sel x)) <> None \/ length l = Capacity \/ lt c (fst x) (conv (sel x)) = true ->
  let cont := sv_cont (K * T) moved de Capacity in
  exists t' l' m' a,
    fobserve ((let* i := index_own kq qk cont (sv_emplace_own moved Capacity) conv dflt sel j in
               let* v := second cont i in ret (AVal v)) (mkFlat c t)) = Some (mkFlat c t', a) /\
    mmeans lt conv dflt (Some Capacity) c l l' m (MIndex (sel x)) m' a /\
    sv_holds (K * T) Capacity t' l' /\ enumerates fst lt c l' m'.
Proof.
  intros K T Q C lt kq qk conv dflt sel moved de Capacity W Hkq Hqk Hcap c t l m j x R EN Hx Hc cont.
  apply (index_right lt kq qk conv dflt W Hkq Hqk _ _ _ (sv_conforms (K * T) moved de Capacity Hcap)
    (sv_emplace_own moved Capacity) sel c t l m j x R EN Hx).
  intros Em p Hb. apply (sv_right fst lt moved de Capacity Hcap c t l p j x
    (fun e => (conv (sel e), dflt)) (conv (sel x))); auto. tauto.
Qed.
Print Assumptions C112_static_vector_index_partial.

(** Otherwise it goes wrong.  If the element referred to is the one before which the new one
    belongs, a destroyed object is read.  If it lies behind, what goes in is made from the
    element before it; unless that happens to be less than the element at the place, what
    is left is no map or set at all. *)
Theorem C112_static_vector_insert_refuted :
  forall (E K Q C : Type) (key : E -> K) (lt : C -> K -> K -> bool) (kq : C -> K -> Q -> bool)
    (qk : C -> Q -> K -> bool) (conv : Q -> K) (q : E -> Q) (make : E -> E)
    (moved : E -> E) (de : E) (Capacity : nat),
  (forall c, strict_weak_order (lt c)) ->
  (forall c k q, kq c k q = lt c k (conv q)) ->
  (forall c k q, qk c q k = lt c (conv q) k) ->
  (N.of_nat Capacity < two63)%N ->
  forall c t l m j x p,
  sv_holds E Capacity t l -> enumerates key lt c l m -> nth_error l j = Some x ->
  m (conv (q x)) = None -> length l < Capacity -> belongs key (lt c) l (conv (q x)) p ->
  let run := insert_own key kq qk (sv_cont E moved de Capacity) (sv_emplace_own moved Capacity)
               q make j (mkFlat c t) in
  (j = p -> run = UB) /\
  (p < j -> exists y z t', nth_error l (j - 1) = Some y /\ nth_error l p = Some z /\
     run = Ok (p, true) (mkFlat c t') /\ sv_holds E Capacity t' (insert_at l p [make y]) /\
     (lt c (key (make y)) (key z) = false ->
      forall m', ~ enumerates key lt c (insert_at l p [make y]) m')).
Proof.
  intros E K Q C key lt kq qk conv q make moved de Capacity W Hkq Hqk Hcap c t l m j x p R EN Hx Em Hl Hb run.
  subst run. rewrite (insert_own_odd key lt kq qk conv _ _ _ (sv_conforms E moved de Capacity Hcap)
    (sv_emplace_own moved Capacity) c (W c) (Hkq c) (Hqk c) t l m R EN j x Hx q make p _ Em Hb eq_refl).
  eapply sv_wrong; eauto.
Qed.
Print Assumptions C112_static_vector_insert_refuted.

Theorem C112_static_vector_index_refuted :
  forall (K T Q C : Type) (lt : C -> K -> K -> bool) (kq : C -> K -> Q -> bool)
    (qk : C -> Q -> K -> bool) (conv : Q -> K) (dflt : T) (sel : K * T -> Q)
    (moved : K * T -> K * T) (de : K * T) (Capacity : nat),
  (forall c, strict_weak_order (lt c)) ->
  (forall c k q, kq c k q = lt c k (conv q)) ->
  (forall c k q, qk c q k = lt c (conv q) k) ->
  (N.of_nat Capacity < two63)%N ->
  forall c t l m j x p,
  sv_holds (K * T) Capacity t l -> enumerates fst lt c l m -> nth_error l j = Some x ->
  m (conv (sel x)) = None -> length l < Capacity -> belongs fst (lt c) l (conv (sel x)) p ->
  let run := index_own kq qk (sv_cont (K * T) moved de Capacity) (sv_emplace_own moved Capacity)
               conv dflt sel j (mkFlat c t) in
  (j = p -> run = UB) /\
  (p < j -> exists y z t', nth_error l (j - 1) = Some y /\ nth_error l p = Some z /\
     run = Ok p (mkFlat c t') /\
     sv_holds (K * T) Capacity t' (insert_at l p [(conv (sel y), dflt)]) /\
     (lt c (conv (sel y)) (fst z) = false ->
      forall m', ~ enumerates fst lt c (insert_at l p [(conv (sel y), dflt)]) m')).
Proof.
  intros K T Q C lt kq qk conv dflt sel moved de Capacity W Hkq Hqk Hcap c t l m j x p R EN Hx Em Hl Hb run.
  subst run. rewrite (index_own_insert lt kq qk conv dflt _ _ _ (sv_conforms (K * T) moved de Capacity Hcap)
    (sv_emplace_own moved Capacity) c (W c) (Hkq c) (Hqk c) t l m R EN j x Hx).
  destruct (C112_static_vector_insert_refuted (K * T) K Q C fst lt kq qk conv sel
    (fun e => (conv (sel e), dflt)) moved de Capacity W Hkq Hqk Hcap c t l m j x p R EN Hx Em Hl Hb) as (H1 & H2).
  cbv zeta in *. split.
  - intros Hj. now rewrite (H1 Hj).
  - intros Hj. destruct (H2 Hj) as (y & z & t' & Hy & Hz & Hr & Hh & Hn).
    exists y, z, t'. rewrite Hr. auto.
Qed.
Print Assumptions C112_static_vector_index_refuted.

(** * small_vector *)

(** Over small_vector it is right if the class is there, or if the elements stay in their
    buffer and the element referred to is less than the key of the new one. *)
Theorem C112_small_vector_insert_partial :
  forall (E K Q C T : Type) (key : E -> K) (lt : C -> K -> K -> bool) (kq : C -> K -> Q -> bool)
    (qk : C -> Q -> K -> bool) (conv : Q -> K) (q : E -> Q) (make : E -> E)
    (moved : E -> E) (de : E) (SC RB : nat) (maxn : N),
  (forall c, strict_weak_order (lt c)) ->
  (forall c k q, kq c k q = lt c k (conv q)) ->
  (forall c k q, qk c q k = lt c (conv q) k) ->
  (forall e, conv (q e) = key (make e)) ->
  0 < SC -> RB <= SC + 1 -> (maxn < two63)%N ->
  forall c t l m j x,
  small_rep SC (length l) t l -> enumerates key lt c l m -> nth_error l j = Some x ->
  SmallVectorSpec.room maxn (length l + 1) ->
  m (conv (q x)) <> None \/
    (~ changes_buffer RB (length l) t /\ lt c (key x) (conv (q x)) = true) ->
  exists t' l' m' (a : fret T),
    fobserve ((let* r := insert_own key kq qk (small_cont E moved de SC RB maxn)
                           (small_emplace_own moved SC RB maxn) q make j in
               ret (AIns (fst r) (snd r))) (mkFlat c t)) = Some (mkFlat c t', a) /\
    inserted key lt None c l l' m m' (make x) a /\
    small_rep SC (S (length l)) t' l' /\ enumerates key lt c l' m'.
Proof.
  intros E K Q C T key lt kq qk conv q make moved de SC RB maxn W Hkq Hqk Hmk HSC HRB Hmax c t l m j x R EN Hx Hr Hc.
  assert (Hr' : SmallVectorSpec.room maxn (S (length l))) by (now rewrite <- Nat.add_1_r).
  destruct (insert_right (T := T) key lt kq qk conv W Hkq Hqk q make Hmk (limited moved de SC RB maxn (S (length l)))
    _ _ (limited_conforms moved de SC RB maxn HSC HRB Hmax (S (length l)) Hr')
    (small_emplace_own moved SC RB maxn) c t l m j x (small_rises _ _ _ _ R) EN Hx)
    as (t' & l' & m' & a & H1 & H2 & H3 & H4).
  - intros Em p Hb. eapply small_right; eauto; tauto.
  - exists t', l', m', a. split; [exact H1|]. split; [|auto].
    now apply (inserted_cap key lt (length l) c l) in H2.
Qed.
Print Assumptions C112_small_vector_insert_partial.

Theorem C112_small_vector_index_partial :
  forall (K T Q C : Type) (lt : C -> K -> K -> bool) (kq : C -> K -> Q -> bool)
    (qk : C -> Q -> K -> bool) (conv : Q -> K) (dflt : T) (sel : K * T -> Q)
    (moved : K * T -> K * T) (de : K * T) (SC RB : nat) (maxn : N),
  (forall c, strict_weak_order (lt c)) ->
  (forall c k q, kq c k q = lt c k (conv q)) ->
  (forall c k q, qk c q k = lt c (conv q) k) ->
  0 < SC -> RB <= SC + 1 -> (maxn < two63)%N ->
  forall c t l m j x,
  small_rep SC (length l) t l -> enumerates fst lt c l m -> nth_error l j = Some x ->
  SmallVectorSpec.room maxn (length l + 1) ->
  m (conv (sel x)) <> None \/
    (~ changes_buffer RB (length l) t /\ lt c (fst x) (conv (sel x)) = true) ->
  let cont := small_cont (K * T) moved de SC RB maxn in
  exists t' l' m' a,
    fobserve ((let* i := index_own kq qk cont (small_emplace_own moved SC RB maxn) conv dflt sel j in
               let* v := second cont i in ret (AVal v)) (mkFlat c t)) = Some (mkFlat c t', a) /\
    mmeans lt conv dflt None c l l' m (MIndex (sel x)) m' a /\
    small_rep SC (S (length l)) t' l' /\ enumerates fst lt c l' m'.
Proof.
  intros K T Q C lt kq qk conv dflt sel moved de SC RB maxn W Hkq Hqk HSC HRB Hmax c t l m j x R EN Hx Hr Hc cont.
  assert (Hr' : SmallVectorSpec.room maxn (S (length l))) by (now rewrite <- Nat.add_1_r).
  destruct (index_right lt kq qk conv dflt W Hkq Hqk (limited moved de SC RB maxn (S (length l)))
    _ _ (limited_conforms moved de SC RB maxn HSC HRB Hmax (S (length l)) Hr')
    (small_emplace_own moved SC RB maxn) sel c t l m j x (small_rises _ _ _ _ R) EN Hx)
    as (t' & l' & m' & a & H1 & H2 & H3 & H4).
  - intros Em p Hb.
    apply (small_right fst lt moved de SC RB maxn HSC HRB Hmax c t l p j x
      (fun e => (conv (sel e), dflt)) (conv (sel x))); auto; tauto.
  - exists t', l', m', a. split; [exact H1|]. split; [|auto].
    eapply mmeans_cap; [|exact H2]. lia.
Qed.
Print Assumptions C112_small_vector_index_partial.

(** Otherwise: if the elements go to another buffer, memory which was given back is read,
    wherever the argument referred to; if they stay, as over static_vector. *)
Theorem C112_small_vector_insert_refuted :
  forall (E K Q C : Type) (key : E -> K) (lt : C -> K -> K -> bool) (kq : C -> K -> Q -> bool)
    (qk : C -> Q -> K -> bool) (conv : Q -> K) (q : E -> Q) (make : E -> E)
    (moved : E -> E) (de : E) (SC RB : nat) (maxn : N),
  (forall c, strict_weak_order (lt c)) ->
  (forall c k q, kq c k q = lt c k (conv q)) ->
  (forall c k q, qk c q k = lt c (conv q) k) ->
  0 < SC -> RB <= SC + 1 -> (maxn < two63)%N ->
  forall c t l m j x p,
  small_rep SC (length l) t l -> enumerates key lt c l m -> nth_error l j = Some x ->
  m (conv (q x)) = None -> SmallVectorSpec.room maxn (length l + 1) ->
  belongs key (lt c) l (conv (q x)) p ->
  let run := insert_own key kq qk (small_cont E moved de SC RB maxn)
               (small_emplace_own moved SC RB maxn) q make j (mkFlat c t) in
  (changes_buffer RB (length l) t -> run = UB) /\
  (j = p -> run = UB) /\
  (~ changes_buffer RB (length l) t -> p < j ->
   exists y z t', nth_error l (j - 1) = Some y /\ nth_error l p = Some z /\
     run = Ok (p, true) (mkFlat c t') /\ small_rep SC (S (length l)) t' (insert_at l p [make y]) /\
     (lt c (key (make y)) (key z) = false ->
      forall m', ~ enumerates key lt c (insert_at l p [make y]) m')).
Proof.
  intros E K Q C key lt kq qk conv q make moved de SC RB maxn W Hkq Hqk HSC HRB Hmax c t l m j x p R EN Hx Em Hr Hb run.
  assert (Hr' : SmallVectorSpec.room maxn (S (length l))) by (now rewrite <- Nat.add_1_r).
  pose proof (insert_own_odd key lt kq qk conv (limited moved de SC RB maxn (S (length l)))
    _ _ (limited_conforms moved de SC RB maxn HSC HRB Hmax (S (length l)) Hr')
    (small_emplace_own moved SC RB maxn) c (W c) (Hkq c) (Hqk c) t l m (small_rises _ _ _ _ R) EN
    j x Hx q make p _ Em Hb eq_refl) as Hrun.
  subst run. change (insert_own key kq qk (small_cont E moved de SC RB maxn)) with
    (insert_own (C := C) key kq qk (limited moved de SC RB maxn (S (length l)))).
  rewrite Hrun. eapply small_wrong; eauto.
Qed.
Print Assumptions C112_small_vector_insert_refuted.

Theorem C112_small_vector_index_refuted :
  forall (K T Q C : Type) (lt : C -> K -> K -> bool) (kq : C -> K -> Q -> bool)
    (qk : C -> Q -> K -> bool) (conv : Q -> K) (dflt : T) (sel : K * T -> Q)
    (moved : K * T -> K * T) (de : K * T) (SC RB : nat) (maxn : N),
  (forall c, strict_weak_order (lt c)) ->
  (forall c k q, kq c k q = lt c k (conv q)) ->
  (forall c k q, qk c q k = lt c (conv q) k) ->
  0 < SC -> RB <= SC + 1 -> (maxn < two63)%N ->
  forall c t l m j x p,
  small_rep SC (length l) t l -> enumerates fst lt c l m -> nth_error l j = Some x ->
  m (conv (sel x)) = None -> SmallVectorSpec.room maxn (length l + 1) ->
  belongs fst (lt c) l (conv (sel x)) p ->
  let run := index_own kq qk (small_cont (K * T) moved de SC RB maxn)
               (small_emplace_own moved SC RB maxn) conv dflt sel j (mkFlat c t) in
  (changes_buffer RB (length l) t -> run = UB) /\
  (j = p -> run = UB) /\
  (~ changes_buffer RB (length l) t -> p < j ->
   exists y z t', nth_error l (j - 1) = Some y /\ nth_error l p = Some z /\
     run = Ok p (mkFlat c t') /\
     small_rep SC (S (length l)) t' (insert_at l p [(conv (sel y), dflt)]) /\
     (lt c (conv (sel y)) (fst z) = false ->
      forall m', ~ enumerates fst lt c (insert_at l p [(conv (sel y), dflt)]) m')).
Proof.
  intros K T Q C lt kq qk conv dflt sel moved de SC RB maxn W Hkq Hqk HSC HRB Hmax c t l m j x p R EN Hx Em Hr Hb run.
  assert (Hr' : SmallVectorSpec.room maxn (S (length l))) by (now rewrite <- Nat.add_1_r).
  pose proof (index_own_insert lt kq qk conv dflt (limited moved de SC RB maxn (S (length l)))
    _ _ (limited_conforms moved de SC RB maxn HSC HRB Hmax (S (length l)) Hr')
    (small_emplace_own moved SC RB maxn) c (W c) (Hkq c) (Hqk c) t l m (small_rises _ _ _ _ R) EN
    j x Hx sel) as Hrun.
  destruct (C112_small_vector_insert_refuted (K * T) K Q C fst lt kq qk conv sel
    (fun e => (conv (sel e), dflt)) moved de SC RB maxn W Hkq Hqk HSC HRB Hmax c t l m j x p R EN Hx Em Hr Hb)
    as (H0 & H1 & H2). cbv zeta in *.
  subst run. change (index_own kq qk (small_cont (K * T) moved de SC RB maxn)) with
    (index_own (C := C) kq qk (limited moved de SC RB maxn (S (length l)))).
  rewrite Hrun. split; [|split].
  - intros Hm. specialize (H0 Hm). change (insert_own fst kq qk (limited moved de SC RB maxn (S (length l)))) with
      (insert_own (C := C) fst kq qk (small_cont (K * T) moved de SC RB maxn)). now rewrite H0.
  - intros Hj. change (insert_own fst kq qk (limited moved de SC RB maxn (S (length l)))) with
      (insert_own (C := C) fst kq qk (small_cont (K * T) moved de SC RB maxn)). now rewrite (H1 Hj).
  - intros Hm Hj. destruct (H2 Hm Hj) as (y & z & t' & Hy & Hz & Hrr & Hh & Hn).
    exists y, z, t'.
    change (insert_own fst kq qk (limited moved de SC RB maxn (S (length l)))) with
      (insert_own (C := C) fst kq qk (small_cont (K * T) moved de SC RB maxn)). rewrite Hrr. auto.
Qed.
Print Assumptions C112_small_vector_index_refuted.

(** * A case *)

(** The map {2 -> 9, 5 -> 1}.  m[m[5]] is to put in 1 -> 0; over std::vector it does, over a
    static_vector or small_vector with room 9 -> 0 goes in, at the front, where it is not
    found any more.  m[m[2]] is right.  In {2 -> 9, 5 -> 3}, m[m[5]] reads a destroyed
    object, and so does it in a small_vector which is full. *)
Definition l112 (v : nat) : list (nat * nat) := [(2, 9); (5, v)].

Lemma asc112 v : ascending fst Nat.ltb (l112 v).
Proof.
  intros [|[|i]] [|[|j]] a b Hij Ha Hb; try lia; cbn in *; try congruence;
    try (destruct i; discriminate); try (destruct j; discriminate).
  injection Ha as <-. injection Hb as <-. reflexivity.
Qed.

Example C112_case :
  let lt := fun _ : unit => Nat.ltb in
  let id := fun k : nat => k in
  let m v := fun k => List.find (fun e => equivb lt tt k (fst e)) (l112 v) in
  let sv v := StaticVectorModel.mkSv [Live (2, 9); Live (5, v); Raw; Raw] 2 None in
  let small v sc := SmallVectorModel.mkVec [SmallVectorModel.Blk ([Live (2, 9); Live (5, v)] ++ repeat Raw (sc - 2))]
                 0 (0, 2) sc None in
  let mv := fun e : nat * nat => e in
  let vindex := index_own lt lt (vec_cont (nat * nat)) vec_emplace_own id 0 snd in
  let sindex := index_own lt lt (sv_cont (nat * nat) mv (0, 0) 4) (sv_emplace_own mv 4) id 0 snd in
  let mindex sc := index_own lt lt (small_cont (nat * nat) mv (0, 0) sc 0 100) (small_emplace_own mv sc 0 100) id 0 snd in
  (forall v, enumerates fst lt tt (l112 v) (m v)) /\
  (forall v, sv_holds (nat * nat) 4 (sv v) (l112 v)) /\
  (forall v, small_rep 3 2 (small v 3) (l112 v)) /\ (forall v, small_rep 2 2 (small v 2) (l112 v)) /\
  m 1 1 = None /\ m 1 9 = None /\ m 3 3 = None /\
  belongs fst (lt tt) (l112 1) 1 0 /\ belongs fst (lt tt) (l112 1) 9 2 /\ belongs fst (lt tt) (l112 3) 3 1 /\
  lt tt 2 9 = true /\ lt tt 9 2 = false /\
  ~ changes_buffer 0 2 (small 1 3) /\ changes_buffer 0 2 (small 1 2) /\
  vindex 1 (mkFlat tt (l112 1)) = Ok 0 (mkFlat tt [(1, 0); (2, 9); (5, 1)]) /\
  sindex 1 (mkFlat tt (sv 1)) =
    Ok 0 (mkFlat tt (StaticVectorModel.mkSv [Live (9, 0); Live (2, 9); Live (5, 1); Raw] 3 None)) /\
  FlatModel.find fst lt lt (vec_cont (nat * nat)) 9 (mkFlat tt [(9, 0); (2, 9); (5, 1)]) =
    Ok 3 (mkFlat tt [(9, 0); (2, 9); (5, 1)]) /\
  sindex 0 (mkFlat tt (sv 1)) =
    Ok 2 (mkFlat tt (StaticVectorModel.mkSv [Live (2, 9); Live (5, 1); Live (9, 0); Raw] 3 None)) /\
  sindex 1 (mkFlat tt (sv 3)) = UB /\
  mindex 3 1 (mkFlat tt (small 1 3)) =
    Ok 0 (mkFlat tt (SmallVectorModel.mkVec [SmallVectorModel.Blk [Live (9, 0); Live (2, 9); Live (5, 1)]] 0 (0, 3) 3 None)) /\
  mindex 2 0 (mkFlat tt (small 1 2)) = UB.
Proof.
  cbv zeta.
  assert (HB : forall v k p, p <= 2 ->
    (forall i e, nth_error (l112 v) i = Some e -> (i <? p) = (fst e <? k)) ->
    belongs fst Nat.ltb (l112 v) k p).
  { intros v k p Hp H. split; [exact Hp|]. split; intros i e Hi He; rewrite <- (H i e He).
    - now apply Nat.ltb_lt.
    - apply Nat.ltb_ge in Hi. now rewrite Hi. }
  assert (HS : forall v sc, 2 <= sc -> small_rep sc 2 (SmallVectorModel.mkVec
    [SmallVectorModel.Blk ([Live (2, 9); Live (5, v)] ++ repeat Raw (sc - 2))] 0 (0, 2) sc None) (l112 v)).
  { intros v sc H. split; [|split; [reflexivity|cbn; lia]]. split; [reflexivity|]. split; [cbn; lia|].
    split; [reflexivity|]. split; [reflexivity|].
    split; [now intros []|]. intros [|j] Hj Hv Hl; [easy|]. cbn in Hl. lia. }
  repeat match goal with |- _ /\ _ => split end; try reflexivity; try (intros v; apply HS; lia).
  - intros v. apply (enum_exists fst (fun _ : unit => Nat.ltb) tt nat_swo). apply asc112.
  - intros v. split; [|reflexivity]. split; [reflexivity|]. split; [reflexivity|]. split; [cbn; lia|].
    intros [|[|[|[|i]]]] Hi; try reflexivity. lia.
  - apply HB; [lia|]. intros [|[|[|i]]] e He; try discriminate; injection He as <-; reflexivity.
  - apply HB; [lia|]. intros [|[|[|i]]] e He; try discriminate; injection He as <-; reflexivity.
  - apply HB; [lia|]. intros [|[|[|i]]] e He; try discriminate; injection He as <-; reflexivity.
  - unfold changes_buffer. cbn. lia.
  - unfold changes_buffer. cbn. lia.
Qed.
