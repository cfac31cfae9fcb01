(** Specification of the overloads: which are selected in C++26, and a map as a function. *)
From Coq Require Import List Arith Bool.
From Verif Require Import Base UmapModel.
Import ListNotations.

(** [unord.map.elem], [unord.map.modifiers] of C++26: the overloads for keys of other types take
    part if Hash and KeyEqual are transparent; try_emplace and operator[] need a Key made of it;
    iterators are not keys. Otherwise a Key is made, if that is possible implicitly. *)
Definition wants (m : mty) (X : kty) : bool := hash_tr m && eq_tr m && negb (is_key X).
Definition std_at (m : mty) (X : kty) : choice :=
  if wants m X then Hetero else if is_key X || to_key X then ViaKey else IllFormed.
Definition std_emplace (m : mty) (X : kty) : choice :=
  if wants m X && negb (to_iter X) && negb (to_citer X) then if makes_key X then Hetero else IllFormed
  else if is_key X || to_key X then ViaKey else IllFormed.

(** A finite map: a function from keys. *)
Section Spec.
Context {K T H : Type}.
Variable make : H -> K.
Variable dflt : T.
Definition fmap := K -> option T.
Definition ext (f : fmap) (k : K) (t : T) (f' : fmap) : Prop :=
  f' k = Some t /\ forall k', k' <> k -> f' k' = f k'.
Inductive sstep : fmap -> op T H -> out T -> fmap -> Prop :=
| s_at f h t : f (make h) = Some t -> sstep f (At h) (Val t) f
| s_at_none f h : f (make h) = None -> sstep f (At h) (Thrown OutOfRange) f
| s_sub f h t a b : f (make h) = Some t -> sstep f (Sub h a b) (Val t) f
| s_sub_new f h f' : f (make h) = None -> ext f (make h) dflt f' ->
    sstep f (Sub h false false) (Val dflt) f'
| s_sub_throws f h a b : f (make h) = None -> a = true \/ b = true ->
    sstep f (Sub h a b) (Thrown ElemThrow) f
| s_set f h t t' a b f' : f (make h) = Some t' -> ext f (make h) t f' -> sstep f (SubSet h t a b) Set_ f'
| s_set_new f h t f' : f (make h) = None -> ext f (make h) t f' ->
    sstep f (SubSet h t false false) Set_ f'
| s_set_throws f h t a b : f (make h) = None -> a = true \/ b = true ->
    sstep f (SubSet h t a b) (Thrown ElemThrow) f
(* an existing element is left as it is, and nothing is constructed, so nothing throws *)
| s_try f h t t' a b : f (make h) = Some t' -> sstep f (TryEmplace h t a b) (Done false t') f
| s_try_new f h t f' : f (make h) = None -> ext f (make h) t f' ->
    sstep f (TryEmplace h t false false) (Done true t) f'
| s_try_throws f h t a b : f (make h) = None -> a = true \/ b = true ->
    sstep f (TryEmplace h t a b) (Thrown ElemThrow) f.
Inductive ssteps : fmap -> list (op T H) -> list (out T) -> fmap -> Prop :=
| ss_nil f : ssteps f [] [] f
| ss_cons f o x f' os xs f'' : sstep f o x f' -> ssteps f' os xs f'' -> ssteps f (o :: os) (x :: xs) f''.
End Spec.
