(** Specification of any: an allocator, and nothing or an object of some type. *)
From Coq Require Import List Arith Bool.
From Verif Require Import Base AnyModel.
Import ListNotations.

Section Spec.
Context {Val : Type}.
Variable copyable : nat -> bool.
Variable layout : bool -> nat -> nat * nat.
Variable mv : Val -> Val.

(** [tab]: per any, its allocator and what it holds; [svars]: the program's variables. *)
Record world : Type := mkWorld {
  tab : nat -> option (nat * option (stored Val));
  svars : nat -> option (nat * Val)
}.
Definition set_tab (w : world) (i : nat) (x : option (nat * option (stored Val))) : world :=
  mkWorld (setm (tab w) i x) (svars w).

(** The object's value: its own, or that of the variable it is linked to. *)
Definition look (w : world) (o : stored Val) : option Val :=
  match o with
  | Own _ v => Some v
  | Link ty (Some x) =>
      match svars w x with
      | Some (ty', v) => if ty' =? ty then Some v else None
      | None => None
      end
  | Link _ None => None
  end.
Definition poke (w : world) (i : nat) (al : nat) (o : stored Val) (v : Val) : world :=
  match o with
  | Own ty _ => set_tab w i (Some (al, Some (Own ty v)))
  | Link ty (Some x) => mkWorld (tab w) (setm (svars w) x (Some (ty, v)))
  | Link _ None => w
  end.

(** The new contents, or why there are none. *)
Definition outcome : Type := stored Val + exn.
Definition made (o : stored Val) (f : fault) : outcome :=
  match f with
  | AllocFails => inr BadAlloc
  | CtorThrows => if is_link o then inl o else inr ElemThrow
  | NoFault => inl o
  end.
Definition copied (o : stored Val) (f : fault) : outcome :=
  match f, o with
  | AllocFails, _ => inr BadAlloc
  | _, Own ty _ => if copyable ty then made o f else inr BadCast
  | _, Link _ _ => inl o
  end.
(** any(src): an rvalue is stored, an lvalue is linked to. *)
Definition forwarded (w : world) (src : source Val) : option (stored Val) :=
  match src with
  | RVal ty v => Some (Own ty v)
  | LVar x => match svars w x with Some (ty, _) => Some (Link ty (Some x)) | None => None end
  | Itself => None
  end.
Definition emplaced (w : world) (ty : nat) (src : source Val) : option (stored Val) :=
  match src with
  | RVal _ v => Some (Own ty v)
  | LVar x =>
      match look w (Link ty (Some x)) with Some v => Some (Own ty v) | None => None end
  | Itself => None
  end.

(** An any with allocator [al] gets new contents; without them it is empty. *)
Definition fill (w : world) (i al : nat) (r : outcome) : world * ans Val :=
  match r with
  | inl o => (set_tab w i (Some (al, Some o)), ANone)
  | inr e => (set_tab w i (Some (al, None)), AThrew e)
  end.
(** The same for an any under construction: without them it does not exist. *)
Definition fill_new (w : world) (i al : nat) (r : outcome) : world * ans Val :=
  match r with
  | inl o => (set_tab w i (Some (al, Some o)), ANone)
  | inr e => (w, AThrew e)
  end.

Definition step (w : world) (o : op Val) : world * ans Val :=
  let at_ i (f : nat -> option (stored Val) -> world * ans Val) :=
    match tab w i with Some (al, c) => f al c | None => (w, ANone) end in
  let cast i ty (yes : nat -> stored Val -> world * ans Val) (no : world * ans Val) :=
    at_ i (fun al c =>
      match c with
      | Some o => if type_of o =? ty then yes al o else no
      | None => no
      end) in
  match o with
  | New i a => (set_tab w i (Some (a, None)), ANone)
  | NewVal i a src f =>
      match forwarded w src with Some o => fill_new w i a (made o f) | None => (w, ANone) end
  | NewMove i j =>
      at_ j (fun al c => (set_tab (set_tab w j (Some (al, None))) i (Some (al, c)), ANone))
  | NewCopy i j a f =>
      at_ j (fun _ c =>
        match c with
        | Some o => fill_new w i a (copied o f)
        | None => (set_tab w i (Some (a, None)), ANone)
        end)
  | Assign i j =>
      if i =? j then (w, ANone) else
      at_ i (fun al _ => at_ j (fun al' c =>
        (set_tab (set_tab w j (Some (al', None))) i (Some (al, c)), ANone)))
  | CopyAssign i j f =>
      at_ i (fun al _ => at_ j (fun _ c =>
        match c with
        | Some o => fill w i al (copied o f)
        | None => (set_tab w i (Some (al, None)), ANone)
        end))
  | AssignVal i src f =>
      at_ i (fun al _ =>
        match forwarded w src with Some o => fill w i al (made o f) | None => (w, ANone) end)
  | Emplace i ty src f =>
      at_ i (fun al _ =>
        match emplaced w ty src with Some o => fill w i al (made o f) | None => (w, ANone) end)
  | Reset i => at_ i (fun al _ => (set_tab w i (Some (al, None)), ANone))
  | Drop i => (set_tab w i None, ANone)
  | Has i => at_ i (fun _ c => (w, ABool (match c with Some _ => true | None => false end)))
  | TypeOf i =>
      at_ i (fun _ c => (w, AType (match c with Some o => Some (type_of o) | None => None end)))
  | CastPtr i ty => cast i ty (fun _ o => (w, AVal (look w o))) (w, AVal None)
  | CastVal i ty => cast i ty (fun _ o => (w, AVal (look w o))) (w, AThrew BadCast)
  | CastMove i ty =>
      cast i ty
        (fun al o =>
           match look w o with
           | Some v => (poke w i al o (mv v), AVal (Some v))
           | None => (w, AVal None)
           end)
        (w, AThrew BadCast)
  | Mutate i ty v => cast i ty (fun al o => (poke w i al o v, ANone)) (w, ANone)
  | SetVar x ty v => (mkWorld (tab w) (setm (svars w) x (Some (ty, v))), ANone)
  | EndVar x => (mkWorld (tab w) (setm (svars w) x None), ANone)
  end.

(** The anys exist (or do not, for a constructor); variables are used only while they
    exist. Left out, because they go wrong: move assignment between different allocators
    (C38), copy assignment to itself (C37), and an any's own object as the source (C63). *)
Definition live_any (w : world) (i : nat) : Prop := tab w i <> None.
Definition readable (w : world) (i ty : nat) : Prop :=
  forall al o, tab w i = Some (al, Some o) -> type_of o = ty -> look w o <> None.
Definition legal (w : world) (o : op Val) : Prop :=
  match o with
  | New i _ => tab w i = None
  | NewVal i _ src _ => tab w i = None /\ forwarded w src <> None
  | NewMove i j => tab w i = None /\ live_any w j
  | NewCopy i j _ _ => tab w i = None /\ live_any w j
  | Assign i j =>
      live_any w i /\ live_any w j /\
      forall al c al' o, tab w i = Some (al, c) -> tab w j = Some (al', Some o) -> al = al'
  | CopyAssign i j _ => live_any w i /\ live_any w j /\ i <> j
  | AssignVal i src _ => live_any w i /\ forwarded w src <> None
  | Emplace i ty src _ => live_any w i /\ emplaced w ty src <> None
  | Reset i | Drop i | Has i | TypeOf i => live_any w i
  | CastPtr i ty | CastVal i ty | CastMove i ty | Mutate i ty _ =>
      live_any w i /\ readable w i ty
  | SetVar _ _ _ | EndVar _ => True
  end.
Fixpoint legal_along (w : world) (os : list (op Val)) : Prop :=
  match os with
  | [] => True
  | o :: os' => legal w o /\ legal_along (fst (step w o)) os'
  end.
Fixpoint spec_run (w : world) (os : list (op Val)) : world * list (ans Val) :=
  match os with
  | [] => (w, [])
  | o :: os' =>
      let '(w', a) := step w o in
      let '(w'', rs) := spec_run w' os' in (w'', a :: rs)
  end.
Definition nothing : world := mkWorld (fun _ => None) (fun _ => None).

(** The state of the model is that world: every any has what it should, in a block of its
    own, from its own allocator, of the object's size and alignment; and there are no
    other blocks. *)
Definition block_for (al : nat) (o : stored Val) : block Val :=
  let '(size, alignment) := layout (is_link o) (type_of o) in
  mkBlock al size alignment (Some o) (Some (size, alignment)).
Definition any_is (s : st Val) (i : nat) (x : option (nat * option (stored Val))) : Prop :=
  match anys s i, x with
  | None, None => True
  | Some a, Some (al, None) => a = mkAny al None
  | Some a, Some (al, Some o) =>
      exists b, a = mkAny al (Some b) /\ heap s b = Some (block_for al o)
  | _, _ => False
  end.
Record is_world (s : st Val) (w : world) : Prop := mkIs {
  same_anys : forall i, any_is s i (tab w i);
  same_vars : forall x, vars s x = svars w x;
  own_blocks : forall i j a a' b,
    anys s i = Some a -> anys s j = Some a' -> m_block a = Some b -> m_block a' = Some b -> i = j;
  no_leaks : forall b, heap s b <> None -> exists i a, anys s i = Some a /\ m_block a = Some b;
  fresh_ids : forall b, next s <= b -> heap s b = None
}.

(** Histories in which no any is made from a variable. *)
Definition no_lvalues (o : op Val) : Prop :=
  match o with
  | NewVal _ _ (LVar _) _ | AssignVal _ (LVar _) _ => False
  | _ => True
  end.
End Spec.
Arguments world : clear implicits.
Arguments outcome : clear implicits.

(** The calls which may change what any i is. *)
Definition touches {Val} (i : nat) (o : op Val) : Prop :=
  match o with
  | New k _ | NewVal k _ _ _ | NewCopy k _ _ _ | CopyAssign k _ _ | AssignVal k _ _
  | Emplace k _ _ _ | Reset k | Drop k | CastMove k _ | Mutate k _ _ => k = i
  | NewMove k j | Assign k j => k = i \/ j = i
  | _ => False
  end.
