(** Specification of flat_map and flat_set: finite maps over classes of equivalent keys.
    Nothing here mentions binary search, insertion positions or the model's functions;
    of the model only the names of the calls, of the answers and of the container
    operations are used. *)
From Coq Require Import List Arith Bool Permutation.
From Verif Require Import Base SeqSpec FlatModel.
Import ListNotations.

(** A strict weak order, as the standard defines it for comparators. *)
Definition equivalent {K} (lt : K -> K -> bool) (a b : K) : Prop :=
  lt a b = false /\ lt b a = false.
Record strict_weak_order {K} (lt : K -> K -> bool) : Prop := {
  swo_irrefl : forall a, lt a a = false;
  swo_trans : forall a b c, lt a b = true -> lt b c = true -> lt a c = true;
  swo_equiv : forall a b c, equivalent lt a b -> equivalent lt b c -> equivalent lt a c
}.

(** Every element is less than all later ones. *)
Definition ascending {E K} (key : E -> K) (lt : K -> K -> bool) (l : list E) : Prop :=
  forall i j a b, i < j -> nth_error l i = Some a -> nth_error l j = Some b ->
    lt (key a) (key b) = true.

(** What std::sort promises: a rearrangement in which no element is less than an earlier
    one. *)
Definition sorts {E} (sort : (E -> E -> bool) -> list E -> list E) : Prop :=
  forall lt l, strict_weak_order lt ->
    Permutation l (sort lt l) /\
    forall i j a b, i < j -> nth_error (sort lt l) i = Some a ->
      nth_error (sort lt l) j = Some b -> lt b a = false.

(** [p] is the border between the elements which satisfy [before] and those which do
    not. *)
Definition border {E} (before : E -> Prop) (l : list E) (p : nat) : Prop :=
  p <= length l /\
  (forall i e, i < p -> nth_error l i = Some e -> before e) /\
  (forall i e, p <= i -> nth_error l i = Some e -> ~ before e).

(** A container which holds a sequence and does with it what std::vector does; if it is
    bounded, an insertion for which there is no room throws and changes nothing. *)
Record conforms {E CT} (cont : container E CT) (cap : option nat)
  (rep : CT -> list E -> Prop) : Prop := {
  cf_fits : forall t l, rep t l -> fits cap (length l) = true;
  cf_size : forall t l, rep t l -> c_size cont t = length l;
  cf_get : forall t l i e, rep t l -> nth_error l i = Some e -> c_get cont i t = Ok e t;
  cf_put : forall t l i e, rep t l -> i < length l ->
    exists t', c_put cont i e t = Ok tt t' /\ rep t' (upd l i e);
  cf_insert : forall t l p e, rep t l -> p <= length l ->
    fits cap (length l + 1) = true ->
    exists t', c_call cont (Insert p e) t = Ok (Some p) t' /\ rep t' (insert_at l p [e]);
  cf_full : forall t l p e, rep t l -> p <= length l ->
    fits cap (length l + 1) = false ->
    exists t', c_call cont (Insert p e) t = Throw OutOfRange t' /\ rep t' l;
  cf_erase : forall t l p, rep t l -> p < length l ->
    exists t', c_call cont (Erase p) t = Ok (Some p) t' /\ rep t' (erase_at l p (S p));
  cf_erase_tail : forall t l p, rep t l -> p <= length l ->
    exists t', c_call cont (EraseRange p (length l)) t = Ok (Some p) t' /\
      rep t' (firstn p l);
  cf_clear : forall t l, rep t l ->
    exists t', c_call cont Clear t = Ok None t' /\ rep t' [];
  cf_copy : forall t u l k, rep t l -> rep u k ->
    exists t' u', c_copy_assign cont (t, u) = Ok tt (t', u') /\ rep t' k /\ rep u' k;
  cf_move : forall t u l k, rep t l -> rep u k ->
    exists t' u', c_move_assign cont (t, u) = Ok tt (t', u') /\ rep t' k /\ rep u' [];
  cf_swap : forall t u l k, rep t l -> rep u k ->
    exists t' u', c_swap cont (t, u) = Ok tt (t', u') /\ rep t' k /\ rep u' l;
  cf_equal : forall eqb t u l k, rep t l -> rep u k ->
    (forall x y, eqb x y = true <-> x = y) ->
    exists r, c_equal cont eqb (t, u) = Ok r (t, u) /\ (r = true <-> l = k)
}.

Section Spec.
Context {E K Q C T : Type}.
Variable key : E -> K.
Variable lt : C -> K -> K -> bool.
(** The key which a lookup key stands for. *)
Variable conv : Q -> K.
(** The number of elements the container can hold, if bounded. *)
Variable cap : option nat.

(** A finite map or set: the element held for the class of a key, if any. *)
Definition fmap := K -> option E.
Definition fempty : fmap := fun _ => None.

Definition equivb (c : C) (a b : K) : bool := negb (lt c a b) && negb (lt c b a).
Definition fput (c : C) (m : fmap) (e : E) : fmap :=
  fun k => if equivb c k (key e) then Some e else m k.
Definition fremove (c : C) (m : fmap) (k0 : K) : fmap :=
  fun k => if equivb c k k0 then None else m k.
Definition same (m m' : fmap) : Prop := forall k, m' k = m k.

(** Iterating over [m] in ascending order gives the elements [l]. *)
Definition enumerates (c : C) (l : list E) (m : fmap) : Prop :=
  ascending key (lt c) l /\
  forall k e, m k = Some e <-> In e l /\ equivalent (lt c) k (key e).

(** An iterator refers to element [x] of [l]; the end iterator stands for [None]. *)
Definition refers (l : list E) (p : nat) (x : option E) : Prop :=
  p <= length l /\ nth_error l p = x.

Definition inserted (c : C) (l l' : list E) (m m' : fmap) (e : E) (a : fret T) : Prop :=
  match m (key e) with
  | Some old => same m m' /\ exists p, a = AIns p false /\ refers l' p (Some old)
  | None =>
      if fits cap (length l + 1)
      then same (fput c m e) m' /\ exists p, a = AIns p true /\ refers l' p (Some e)
      else same m m' /\ a = AThrow OutOfRange
  end.

(** The call [o] turns [m] into [m'] and has the answer [a]; [l] and [l'] are the
    elements before and after in ascending order. *)
Definition fmeans (c : C) (l l' : list E) (m : fmap) (o : fop E Q) (m' : fmap) (a : fret T)
  : Prop :=
  match o with
  | FInsert e | FInsertAs _ e | FEmplace e => inserted c l l' m m' e a
  | FErase pos =>
      exists e, nth_error l pos = Some e /\ same (fremove c m (key e)) m' /\
        exists p, a = AIter p /\ refers l' p (nth_error l (S pos))
  | FEraseKey q =>
      match m (conv q) with
      | Some _ => same (fremove c m (conv q)) m' /\ a = ACount 1
      | None => same m m' /\ a = ACount 0
      end
  | FFind q => same m m' /\ exists p, a = AIter p /\ refers l' p (m (conv q))
  | FCount q =>
      same m m' /\ a = ACount (match m (conv q) with Some _ => 1 | None => 0 end)
  | FLower q =>
      same m m' /\
      exists p, a = AIter p /\ border (fun e => lt c (key e) (conv q) = true) l' p
  | FUpper q =>
      same m m' /\
      exists p, a = AIter p /\ border (fun e => lt c (conv q) (key e) = false) l' p
  | FEqual q =>
      same m m' /\
      exists p r, a = ARange p r /\
        border (fun e => lt c (key e) (conv q) = true) l' p /\
        border (fun e => lt c (conv q) (key e) = false) l' r
  | FClear => same fempty m' /\ a = ANone
  | FSize => same m m' /\ a = ACount (length l)
  end.

(** Preconditions: an iterator given to erase refers to an element; an element made from
    a foreign argument has the key which that argument stands for. *)
Definition fallowed (c : C) (m : fmap) (o : fop E Q) : Prop :=
  match o with
  | FErase pos => exists l, enumerates c l m /\ pos < length l
  | FInsertAs q e => key e = conv q
  | _ => True
  end.
End Spec.

Section MapSpec.
Context {K T Q C : Type}.
Variable lt : C -> K -> K -> bool.
Variable conv : Q -> K.
Variable dflt : T.
Variable cap : option nat.

Definition mmeans (c : C) (l l' : list (K * T)) (m : fmap (E := K * T)) (o : mop K T Q)
  (m' : fmap) (a : fret T) : Prop :=
  match o with
  | MCommon o' => fmeans fst lt conv cap c l l' m o' m' a
  | MIndex q =>
      match m (conv q) with
      | Some e => same m m' /\ a = AVal (snd e)
      | None =>
          if fits cap (length l + 1)
          then same (fput fst lt c m (conv q, dflt)) m' /\ a = AVal dflt
          else same m m' /\ a = AThrow OutOfRange
      end
  | MIndexSet q v =>
      match m (conv q) with
      | Some e => same (fput fst lt c m (fst e, v)) m' /\ a = ANone
      | None =>
          if fits cap (length l + 1)
          then same (fput fst lt c m (conv q, v)) m' /\ a = ANone
          else same m m' /\ a = AThrow OutOfRange
      end
  | MAt q =>
      same m m' /\
      a = match m (conv q) with Some e => AVal (snd e) | None => AThrow OutOfRange end
  | MAtSet q v =>
      match m (conv q) with
      | Some e => same (fput fst lt c m (fst e, v)) m' /\ a = ANone
      | None => same m m' /\ a = AThrow OutOfRange
      end
  | MIterSet pos v =>
      exists e, nth_error l pos = Some e /\
        same (fput fst lt c m (fst e, v)) m' /\ a = ANone
  end.

Definition mallowed (c : C) (m : fmap) (o : mop K T Q) : Prop :=
  match o with
  | MCommon o' => fallowed fst lt conv c m o'
  | MIterSet pos _ => exists l, enumerates fst lt c l m /\ pos < length l
  | _ => True
  end.
End MapSpec.

(** * Several maps or sets, and histories *)

Section Histories.
Context {E K C T O : Type}.
Variable key : E -> K.
Variable lt : C -> K -> K -> bool.
Variable means : C -> list E -> list E -> (K -> option E) -> O -> (K -> option E) -> fret T -> Prop.
Variable allowed : C -> (K -> option E) -> O -> Prop.

(** Comparator and contents of one object. *)
Definition obj : Type := C * (K -> option E).

Definition step1 (x : obj) (o : O) (x' : obj) (a : fret T) : Prop :=
  fst x' = fst x /\
  exists l l', enumerates key lt (fst x) l (snd x) /\ enumerates key lt (fst x) l' (snd x') /\
    means (fst x) l l' (snd x) o (snd x') a.

Definition stepn (cs : list obj) (o : fsysop O) (cs' : list obj) (a : fret T) : Prop :=
  match o with
  | FOn i op => exists x x', nth_error cs i = Some x /\ step1 x op x' a /\ cs' = upd cs i x'
  | FCopyAssign i j =>
      a = ANone /\ exists y, nth_error cs j = Some y /\ cs' = upd cs i y
  | FMoveAssign i j =>
      a = ANone /\ exists y, nth_error cs j = Some y /\
        cs' = upd (upd cs i y) j (fst y, fempty)
  | FSwap i j =>
      a = ANone /\ exists x y, nth_error cs i = Some x /\ nth_error cs j = Some y /\
        cs' = upd (upd cs i y) j x
  end.

(** The objects named exist (two different ones where two are named) and the call is
    allowed. *)
Definition allowedn (cs : list obj) (o : fsysop O) : Prop :=
  match o with
  | FOn i op => exists x, nth_error cs i = Some x /\ allowed (fst x) (snd x) op
  | FCopyAssign i j | FMoveAssign i j | FSwap i j =>
      i < length cs /\ j < length cs /\ i <> j
  end.

(** Every call of the history is allowed in the state which the calls before it lead to. *)
Inductive legal : list obj -> list (fsysop O) -> Prop :=
| legal_nil cs : legal cs []
| legal_cons cs o os :
    allowedn cs o ->
    (forall cs' a, stepn cs o cs' a -> legal cs' os) ->
    legal cs (o :: os).

(** The answers [rs] to the calls [os] are right, and lead to the contents [cs']. *)
Inductive follows : list obj -> list (fsysop O) -> list (fret T) -> list obj -> Prop :=
| follows_nil cs : follows cs [] [] cs
| follows_cons cs o os cs1 a rs cs2 :
    stepn cs o cs1 a -> follows cs1 os rs cs2 -> follows cs (o :: os) (a :: rs) cs2.

(** A flat object holds comparator and contents [x]. *)
Definition holds {CT} (rep : CT -> list E -> Prop) (s : flat C CT) (x : obj) : Prop :=
  fcmp s = fst x /\ exists l, rep (fcont s) l /\ enumerates key lt (fst x) l (snd x).
End Histories.
