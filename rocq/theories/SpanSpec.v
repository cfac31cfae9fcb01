(** Specification of the views: a view shows a list; slicing takes parts of it. *)
From Coq Require Import List Arith NArith ZArith Bool.
From Verif Require Import Base VecCommon SpanModel.
Import ListNotations.
Open Scope N_scope.

Section Spec.
Context {X : Type}.

(** [l] lies in memory from address [a] on, [step] bytes from one element to the next,
    below the end of the address space; objects larger than half of it do
    not exist. *)
Record array (mem : N -> option X) (a step : N) (l : list X) : Prop := mkArray {
  elements : forall i x, nth_error l i = Some x -> mem (a + N.of_nat i * step) = Some x;
  below : a + N.of_nat (length l) * step < two64;
  half : N.of_nat (length l) * step < two63;
  positive : 0 < step
}.

(** A span, memory_view or stride_span which shows [l]. *)
Definition shows (mem : N -> option X) (sz : N) (s : span) (l : list X) : Prop :=
  array mem (m_begin s) sz l /\ m_end s = m_begin s + N.of_nat (length l) * sz.
Definition mv_shows (mem : N -> option X) (sz : N) (v : mview) (l : list X) : Prop :=
  array mem (m_ptr v) sz l /\ m_size v = N.of_nat (length l).
Definition s_shows (mem : N -> option X) (s : sspan) (l : list X) : Prop :=
  array mem (s_begin s) (stride s) l /\ num s = N.of_nat (length l).

(** The parts. *)
Definition cut_list (l : list X) (c : cut) : list X :=
  match c with
  | Sub off count => firstn (N.to_nat count) (skipn (N.to_nat off) l)
  | First n => firstn (N.to_nat n) l
  | Last n => skipn (length l - N.to_nat n) l
  | RemovePrefix n => skipn (N.to_nat n) l
  | RemoveSuffix n => firstn (length l - N.to_nat n) l
  end.
Definition mcut_list (l : list X) (c : mcut) : list X :=
  match c with
  | MSlice off count => firstn (N.to_nat count) (skipn (N.to_nat off) l)
  | MPrefix n => skipn (N.to_nat n) l
  | MSuffix n => firstn (length l - N.to_nat n) l
  | MReset n => firstn (N.to_nat n) l
  end.

(** remove_prefix and remove_suffix must not be given more than there is. The other
    conditions leave out what goes wrong: too large arguments of last, and for span
    offsets beyond the end of the address space. *)
Definition within (l : list X) (n : N) : Prop := n <= N.of_nat (length l).
Definition cut_ok (sz : N) (s : span) (l : list X) (c : cut) : Prop :=
  match c with
  | Sub off _ => m_begin s + off * sz < two64
  | First _ => True
  | Last n | RemovePrefix n | RemoveSuffix n => within l n
  end.
Definition s_cut_ok (l : list X) (c : cut) : Prop :=
  match c with
  | Sub off count => off < two64
  | First n => True
  | Last n | RemovePrefix n | RemoveSuffix n => within l n
  end.
Definition mcut_ok (l : list X) (c : mcut) : Prop :=
  match c with
  | MSlice off _ => off < two64
  | MPrefix n | MSuffix n | MReset n => within l n
  end.

(** Sequences of cuts, each of which is all right for what the former left. *)
Fixpoint cuts_ok (sz : N) (s : span) (l : list X) (cs : list cut) : Prop :=
  match cs with
  | [] => True
  | c :: cs' => cut_ok sz s l c /\ cuts_ok sz (cut_span sz s c) (cut_list l c) cs'
  end.
Fixpoint s_cuts_ok (l : list X) (cs : list cut) : Prop :=
  match cs with
  | [] => True
  | c :: cs' => s_cut_ok l c /\ s_cuts_ok (cut_list l c) cs'
  end.
Fixpoint mcuts_ok (l : list X) (cs : list mcut) : Prop :=
  match cs with
  | [] => True
  | c :: cs' => mcut_ok l c /\ mcuts_ok (mcut_list l c) cs'
  end.

(** Every [k]th element from [o] on. *)
Fixpoint every_aux (k : nat) (wait : nat) (l : list X) : list X :=
  match l with
  | [] => []
  | x :: l' =>
      match wait with
      | O => x :: every_aux k (k - 1) l'
      | S w => every_aux k w l'
      end
  end.
Definition every (o k : nat) (l : list X) : list X := every_aux k o l.
End Spec.

(** What can be seen of a view which shows [l]. *)
Section Seen.
Context {X : Type}.
Definition last_of (l : list X) : option X := nth_error l (length l - 1).
Record seen (mem : N -> option X) (sz : N) (s : span) (l : list X) : Prop := mkSeen {
  seen_size : size sz s = N.of_nat (length l);
  seen_empty : empty s = true <-> l = [];
  seen_at : forall i x, nth_error l i = Some x -> at_ mem sz s (N.of_nat i) = Some x;
  seen_front : forall x, nth_error l 0 = Some x -> front mem sz s = Some x;
  seen_back : forall x, last_of l = Some x -> back mem sz s = Some x;
  seen_forth : forall fuel, (length l <= fuel)%nat -> forth mem sz s fuel = Some l;
  seen_backwards : forall fuel, (length l <= fuel)%nat -> backwards mem sz s fuel = Some (rev l);
  seen_bytes : as_bytes sz s = (m_begin s, N.of_nat (length l) * sz)
}.
Record mv_seen (mem : N -> option X) (sz : N) (v : mview) (l : list X) : Prop := mkMvSeen {
  mv_seen_size : m_size v = N.of_nat (length l);
  mv_seen_at : forall i x, nth_error l i = Some x -> mv_at mem sz v (N.of_nat i) = Some x;
  mv_seen_back : forall x, last_of l = Some x -> mv_back mem sz v = Some x;
  mv_seen_forth : forall fuel, (length l <= fuel)%nat -> mv_forth mem sz v fuel = Some l
}.
Record s_seen (mem : N -> option X) (s : sspan) (l : list X) : Prop := mkSSeen {
  s_seen_size : num s = N.of_nat (length l);
  s_seen_empty : s_empty s = true <-> l = [];
  s_seen_at : forall i x, nth_error l i = Some x -> s_at mem s (N.of_nat i) = Some x;
  s_seen_front : forall x, nth_error l 0 = Some x -> s_front mem s = Some x;
  s_seen_back : forall x, last_of l = Some x -> s_back mem s = Some x;
  s_seen_forth : forall fuel, (length l <= fuel)%nat -> s_forth mem s fuel = Some l;
  s_seen_backwards : forall fuel, (length l <= fuel)%nat -> s_backwards mem s fuel = Some (rev l)
}.
End Seen.

(** The second view begins and ends within the memory of the first one, also when it shows nothing. *)
Definition inside (s s' : span) : Prop :=
  m_begin s <= m_begin s' /\ m_begin s' <= m_end s' /\ m_end s' <= m_end s.
Definition mv_inside (sz : N) (v v' : mview) : Prop :=
  m_ptr v <= m_ptr v' /\ m_ptr v' + m_size v' * sz <= m_ptr v + m_size v * sz.
Definition s_inside (s s' : sspan) : Prop :=
  stride s' = stride s /\ s_begin s <= s_begin s' /\
  s_begin s' + num s' * stride s <= s_begin s + num s * stride s.

(** The iterator begin() + i. *)
Definition it (s : sspan) (i : N) : siter := iadd (s_begin_it s) (Z.of_N i).
