(** Model of include/itlib/transparent_umap.hpp: which overload a call with a key of another type
    selects (C++ overload resolution and SFINAE, as far as the class uses them), and what the
    selected overloads do.

    Overload resolution works on facts about the types, one record for the map and one for the
    type X of the key in the call. The maps of std are their specification: an association
    list without equal keys, with the lookup and emplacement of [unord.map]. *)
From Coq Require Import List Arith Bool.
From Verif Require Import Base.
Import ListNotations.

(** * Overloads *)

(** The template arguments of the map. *)
Record mty : Type := mkM { hash_tr : bool; eq_tr : bool }.   (* ::is_transparent is a type *)
(** The type X of an argument (without const and &). *)
Record kty : Type := mkK {
  is_key : bool;                               (* it is Key *)
  key_tr : bool;                               (* X::is_transparent is a type *)
  from_key : bool;                             (* is_convertible<Key, X> *)
  to_key : bool;                               (* is_convertible<X, Key>: implicitly *)
  makes_key : bool;                            (* is_constructible<Key, X> *)
  to_iter : bool; to_citer : bool              (* is_convertible<X, iterator>, const_iterator *)
}.
(** What a call does: look up by the argument itself; make a Key of it (or use the Key given); it
    does not compile. *)
Inductive choice : Type := Hetero | ViaKey | IllFormed.

(** 61-64. For T = X& it is false: X& has no members. *)
Definition is_transparent (X : kty) (reference : bool) : bool := if reference then false else key_tr X.
(** 86-87 *)
Definition enable_if_tr (X : kty) (reference : bool) : bool := is_transparent X reference.
(** 90-98. Convertibility of Key to X& needs an lvalue and is false; that of X& is that of X. *)
Definition enable_if_tr_c (X : kty) (reference : bool) : bool :=
  is_transparent X reference && (if reference then false else from_key X) &&
  negb (to_iter X) && negb (to_citer X).

(** std::unordered_map::find (C++20): the template takes part if both are transparent. *)
Definition std_find (m : mty) (X : kty) : choice :=
  if is_key X then ViaKey
  else if hash_tr m && eq_tr m then Hetero
  else if to_key X then ViaKey else IllFormed.
(** The overloads of the base class: they take a Key. *)
Definition std_overload (X : kty) : choice := if is_key X || to_key X then ViaKey else IllFormed.
(** A template which takes X as it is is better than a conversion; a function which is not a
    template is better if it takes a Key. *)
Definition select (enabled : bool) (body : choice) (X : kty) : choice :=
  if enabled && negb (is_key X) then body else std_overload X.

(** 102-107, with the body: find, then emplace, which needs a Key made of X *)
Definition try_emplace_of (m : mty) (X : kty) (lvalue : bool) : choice :=
  select (enable_if_tr_c X lvalue) (if makes_key X then std_find m X else IllFormed) X.
(** 109-115: emplace_hint returns an iterator, of which no pair can be made *)
Definition try_emplace_hint_of (m : mty) (X : kty) (lvalue : bool) : choice :=
  select (enable_if_tr X lvalue) IllFormed X.
(** 119-122. try_emplace is given std::forward<K>(key), which selects as the argument did. *)
Definition subscript_of (m : mty) (X : kty) (lvalue : bool) : choice :=
  select (enable_if_tr_c X lvalue) (try_emplace_of m X lvalue) X.
(** 126-138: const K&, so that K is never a reference *)
Definition at_of (m : mty) (X : kty) : choice := select (enable_if_tr X false) (std_find m X) X.

(** * What they do, when selected *)
Section Map.
Context {K T H : Type}.                        (* Key, T, and the type of other keys *)
Variable keq : K -> K -> bool.                 (* KeyEqual on two Keys *)
Variable heq : H -> K -> bool.                 (* and on another key and a Key *)
Variable make : H -> K.                        (* Key(h) *)

Definition map := list (K * T).
(** find(h): [Some i], the place of the element, or end() *)
Fixpoint find (h : H) (m : map) : option nat :=
  match m with
  | [] => None
  | (k, _) :: m => if heq h k then Some 0 else option_map S (find h m)
  end.
Fixpoint find_key (k : K) (m : map) : option nat :=
  match m with
  | [] => None
  | (k', _) :: m => if keq k k' then Some 0 else option_map S (find_key k m)
  end.
(** emplace: the element is constructed, and destroyed again if there is one with its key. *)
Definition emplace (k : K) (t : T) : M map (nat * bool) := fun m =>
  match find_key k m with
  | Some i => Ok (i, false) m
  | None => Ok (length m, true) (m ++ [(k, t)])
  end.
(** 104-106. [t]: what T(args...) is; [t_throws]: it throws; [k_throws]: constructing the Key, or
    moving the T into the element, or getting memory for it throws. *)
Definition try_emplace (h : H) (t : T) (t_throws k_throws : bool) : M map (nat * bool) := fun m =>
  match find h m with
  | Some i => Ok (i, false) m
  | None => (throw_if t_throws ElemThrow ;;; throw_if k_throws ElemThrow ;;; emplace (make h) t) m
  end.
(** 121; the reference it returns is the place of the element *)
Definition subscript (dflt : T) (h : H) (t_throws k_throws : bool) : M map nat :=
  let* r := try_emplace h dflt t_throws k_throws in ret (fst r).
(** 128-130, 135-137 *)
Definition at_ (h : H) : M map T := fun m =>
  match find h m with
  | Some i => match nth_error m i with Some (_, t) => Ok t m | None => UB end
  | None => Throw OutOfRange m
  end.
(** Assignment through a reference. *)
Definition assign (i : nat) (t : T) : M map unit := fun m =>
  match nth_error m i with Some (k, _) => Ok tt (upd m i (k, t)) | None => UB end.

Variable dflt : T.
Inductive op : Type :=
| At (h : H)
| Sub (h : H) (t_throws k_throws : bool)             (* t = m[h] *)
| SubSet (h : H) (t : T) (t_throws k_throws : bool)  (* m[h] = t *)
| TryEmplace (h : H) (t : T) (t_throws k_throws : bool).
Inductive out : Type :=
| Val (t : T)
| Done (inserted : bool) (t : T)               (* and the value at the iterator *)
| Set_
| Thrown (e : exn).

Definition deref (i : nat) : M map T := fun m =>
  match nth_error m i with Some (_, t) => Ok t m | None => UB end.
Definition call (o : op) : M map out :=
  match o with
  | At h => let* t := at_ h in ret (Val t)
  | Sub h a b => let* i := subscript dflt h a b in let* t := deref i in ret (Val t)
  | SubSet h t a b => let* i := subscript dflt h a b in assign i t ;;; ret Set_
  | TryEmplace h t a b =>
      let* r := try_emplace h t a b in let* t := deref (fst r) in ret (Done (snd r) t)
  end.
Fixpoint calls (os : list op) (m : map) : res map (list out) :=
  match os with
  | [] => Ok [] m
  | o :: os =>
      match call o m with
      | Ok x m => match calls os m with Ok xs m => Ok (x :: xs) m | r => r end
      | Throw e m => match calls os m with Ok xs m => Ok (Thrown e :: xs) m | r => r end
      | UB => UB
      | Diverge => Diverge
      end
  end.
End Map.
Arguments op : clear implicits.
Arguments out : clear implicits.
