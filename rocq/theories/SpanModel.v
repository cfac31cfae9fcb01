(** Models of itlib/span.hpp, stride_span.hpp, poly_span.hpp and memory_view.hpp.

    Pointers are 64-bit addresses and pointer arithmetic is what the machine does: it
    wraps around. (The standard makes arithmetic which leaves an array undefined; a
    theorem about such a case says where the resulting pointer points to.) The memory maps
    addresses to the objects which can be read there.

    Simplified: constness and conversions between spans of T and const T copy the members
    and are not modelled; writing through a span is as reading. The assertions of bounds
    are preconditions. *)
From Coq Require Import List Arith NArith ZArith Bool.
From Verif Require Import Base VecCommon.
Import ListNotations.
Open Scope N_scope.

(** size_t and ptrdiff_t *)
Definition wrap (x : N) : N := x mod two64.
Definition usub (x y : N) : N := (x + two64 - y) mod two64.
Definition signed (x : N) : Z :=
  if x <? two63 then Z.of_N x else (Z.of_N x - Z.of_N two64)%Z.
Definition unsigned (z : Z) : N := Z.to_N (z mod Z.of_N two64).

Section Span.
Context {X : Type}.
Variable mem : N -> option X.
Variable sz : N.                      (* sizeof(T) *)

(** T* + n, T* - n *)
Definition padd (p n : N) : N := wrap (p + n * sz).
Definition psub (p n : N) : N := usub p (wrap (n * sz)).
(** T* - T* *)
Definition pdiff (p q : N) : Z := Z.quot (signed (usub p q)) (Z.of_N sz).

(** span.hpp 108-148, 328-331: constructors take a range, or a pointer and a size *)
Record span : Type := mkSpan { m_begin : N; m_end : N }.
Definition span_n (b n : N) : span := mkSpan b (padd b n).
Definition span_null : span := mkSpan 0 0.

(** 239-247 *)
Definition empty (s : span) : bool := m_begin s =? m_end s.
Definition size (s : span) : N := unsigned (pdiff (m_end s) (m_begin s)).
(** 167-191; [None]: there is no object *)
Definition at_ (s : span) (i : N) : option X := mem (padd (m_begin s) i).
Definition front (s : span) : option X := at_ s 0.
Definition back (s : span) : option X := at_ s (usub (size s) 1).
Definition has (s : span) : bool := negb (m_begin s =? 0).
(** 250-263: where the bytes begin and how many they are *)
Definition size_bytes (s : span) : N := wrap (size s * sz).
Definition as_bytes (s : span) : N * N := (m_begin s, size_bytes s).
(** 266-272 *)
Definition subspan (s : span) (off count : N) : span :=
  if m_end s <? padd (m_begin s) off then span_n (m_end s) 0
  else
    let new_size := usub (size s) off in
    let count := if new_size <? count then new_size else count in
    span_n (padd (m_begin s) off) count.
(** 274-292 *)
Definition first (s : span) (n : N) : span := subspan s 0 n.
Definition last (s : span) (n : N) : span := subspan s (usub (size s) n) n.
Definition remove_prefix (s : span) (n : N) : span := mkSpan (padd (m_begin s) n) (m_end s).
Definition remove_suffix (s : span) (n : N) : span := mkSpan (m_begin s) (psub (m_end s) n).

(** for (p = begin; p != end; ++p) *p, and the same with reverse iterators; at most
    [fuel] steps, [None] if an object is missing or the end is not reached *)
Fixpoint walk (step : N -> N) (fuel : nat) (p e : N) : option (list X) :=
  if p =? e then Some [] else
  match fuel with
  | O => None
  | S fuel' =>
      match mem p, walk step fuel' (step p) e with
      | Some x, Some l => Some (x :: l)
      | _, _ => None
      end
  end.
Fixpoint rwalk (back : N -> N) (fuel : nat) (p b : N) : option (list X) :=
  if p =? b then Some [] else
  match fuel with
  | O => None
  | S fuel' =>
      match mem (back p), rwalk back fuel' (back p) b with
      | Some x, Some l => Some (x :: l)
      | _, _ => None
      end
  end.
Definition forth (s : span) (fuel : nat) : option (list X) :=
  walk (fun p => padd p 1) fuel (m_begin s) (m_end s).
Definition backwards (s : span) (fuel : nat) : option (list X) :=
  rwalk (fun p => psub p 1) fuel (m_end s) (m_begin s).

(** ** memory_view, and const_memory_view which differs in constness only *)

(** memory_view.hpp 334-336, 477-479 *)
Record mview : Type := mkMview { m_ptr : N; m_size : N }.
Definition mv_at (v : mview) (i : N) : option X := mem (padd (m_ptr v) i).
Definition mv_back (v : mview) : option X := mv_at v (usub (m_size v) 1).
Definition mv_end (v : mview) : N := padd (m_ptr v) (m_size v).
Definition mv_forth (v : mview) (fuel : nat) : option (list X) :=
  walk (fun p => padd p 1) fuel (m_ptr v) (mv_end v).
Definition mv_reset_size (v : mview) (n : N) : mview := mkMview (m_ptr v) n.
(** 314-331, 458-475 *)
Definition slice (v : mview) (off count : N) : mview :=
  if m_size v <? off then mkMview (padd (m_ptr v) (m_size v)) 0
  else
    let new_size := usub (m_size v) off in
    let count := if new_size <? count then new_size else count in
    mkMview (padd (m_ptr v) off) count.
Definition mv_remove_prefix (v : mview) (n : N) : mview :=
  mkMview (padd (m_ptr v) n) (usub (m_size v) n).
Definition mv_remove_suffix (v : mview) (n : N) : mview :=
  mkMview (m_ptr v) (usub (m_size v) n).
(** 484-528 make_memory_view of a pointer and a size, and of a container *)
Definition make_view (p n : N) : mview := mkMview p n.
Definition make_view_of (data csize offset : N) : mview :=
  mkMview (padd data offset) (usub csize offset).

(** ** stride_span *)

(** stride_span.hpp 321-324; byte pointers *)
Record sspan : Type := mkSspan { s_begin : N; stride : N; num : N }.
(** 136-170 *)
Definition s_at (s : sspan) (i : N) : option X := mem (wrap (s_begin s + wrap (stride s * i))).
Definition s_front (s : sspan) : option X := s_at s 0.
Definition s_back (s : sspan) : option X := s_at s (usub (num s) 1).
Definition s_empty (s : sspan) : bool := num s =? 0.
(** 297-303 *)
Definition s_subspan (s : sspan) (off count : N) : sspan :=
  if num s <? off then mkSspan (wrap (s_begin s + wrap (num s * stride s))) (stride s) 0
  else
    let new_size := usub (num s) off in
    let count := if new_size <? count then new_size else count in
    mkSspan (wrap (s_begin s + wrap (off * stride s))) (stride s) count.
(** 305-324 *)
Definition s_first (s : sspan) (n : N) : sspan := s_subspan s 0 n.
Definition s_last (s : sspan) (n : N) : sspan := s_subspan s (usub (num s) n) n.
Definition s_remove_prefix (s : sspan) (n : N) : sspan :=
  mkSspan (wrap (s_begin s + wrap (n * stride s))) (stride s) (usub (num s) n).
Definition s_remove_suffix (s : sspan) (n : N) : sspan :=
  mkSspan (s_begin s) (stride s) (usub (num s) n).

(** 192-223 t_iterator *)
Record siter : Type := mkIter { ip : N; istride : N }.
Definition deref (i : siter) : option X := mem (ip i).
Definition inc (i : siter) : siter := mkIter (wrap (ip i + istride i)) (istride i).
Definition dec (i : siter) : siter := mkIter (usub (ip i) (istride i)) (istride i).
(** diff * stride: the ptrdiff_t is converted to size_t *)
Definition iadd (i : siter) (diff : Z) : siter :=
  mkIter (wrap (ip i + wrap (unsigned diff * istride i))) (istride i).
Definition isub (i : siter) (diff : Z) : siter :=
  mkIter (usub (ip i) (wrap (unsigned diff * istride i))) (istride i).
(** 216: (p - other.p) / stride is a ptrdiff_t divided by a size_t *)
Definition idiff (i j : siter) : Z := signed (unsigned (signed (usub (ip i) (ip j))) / istride i).
Definition ieq (i j : siter) : bool := ip i =? ip j.
Definition ilt (i j : siter) : bool := ip i <? ip j.
Definition ile (i j : siter) : bool := ip i <=? ip j.
(** 230-275 *)
Definition s_begin_it (s : sspan) : siter := mkIter (s_begin s) (stride s).
Definition s_end_it (s : sspan) : siter :=
  mkIter (wrap (s_begin s + wrap (num s * stride s))) (stride s).
Definition s_forth (s : sspan) (fuel : nat) : option (list X) :=
  walk (fun p => ip (inc (mkIter p (stride s)))) fuel (ip (s_begin_it s)) (ip (s_end_it s)).
Definition s_backwards (s : sspan) (fuel : nat) : option (list X) :=
  rwalk (fun p => ip (dec (mkIter p (stride s)))) fuel (ip (s_end_it s)) (ip (s_begin_it s)).

(** 326-383 *)
Definition from_buf (buf offset st n : N) : sspan := mkSspan (wrap (buf + offset)) st n.
Definition from_array (ar len noffset nstride : N) : sspan :=
  mkSspan (padd ar noffset) (wrap (sz * nstride))
    (wrap (usub len noffset + nstride + (two64 - 1)) / nstride).
(** members and bases are [off] bytes into each object of [ssz] bytes *)
Definition member_view (ar len ssz off : N) : sspan := mkSspan (wrap (ar + off)) ssz len.
End Span.

(** ** poly_span: a strided view whose elements are the results of a function
    (poly_span.hpp 121-131, 151-162, 206-237, 311-346) *)
Record pspan {X R : Type} : Type := mkPspan { p_span : sspan; p_func : X -> R }.
Arguments pspan : clear implicits.
Definition called {X R} (mem : N -> option X) (f : X -> R) (p : N) : option R :=
  match mem p with Some x => Some (f x) | None => None end.
Definition p_of_array {X R} (b usz n : N) (f : X -> R) : pspan X R := mkPspan _ _ (mkSspan b usz n) f.
Definition p_at {X R} (mem : N -> option X) (s : pspan X R) (i : N) : option R :=
  s_at (called mem (p_func s)) (p_span s) i.
Definition p_back {X R} (mem : N -> option X) (s : pspan X R) : option R :=
  s_back (called mem (p_func s)) (p_span s).
Definition p_forth {X R} (mem : N -> option X) (s : pspan X R) (fuel : nat) : option (list R) :=
  s_forth (called mem (p_func s)) (p_span s) fuel.
Definition p_subspan {X R} (s : pspan X R) (off count : N) : pspan X R :=
  mkPspan _ _ (s_subspan (p_span s) off count) (p_func s).
Definition p_first {X R} (s : pspan X R) (n : N) : pspan X R := p_subspan s 0 n.
Definition p_last {X R} (s : pspan X R) (n : N) : pspan X R := p_subspan s (usub (num (p_span s)) n) n.
Definition p_remove_prefix {X R} (s : pspan X R) (n : N) : pspan X R :=
  mkPspan _ _ (s_remove_prefix (p_span s) n) (p_func s).
Definition p_remove_suffix {X R} (s : pspan X R) (n : N) : pspan X R :=
  mkPspan _ _ (s_remove_suffix (p_span s) n) (p_func s).

(** * Sequences of slicing calls *)
Inductive cut : Type :=
| Sub (off count : N)
| First (n : N)
| Last (n : N)
| RemovePrefix (n : N)
| RemoveSuffix (n : N).
Definition cut_span (sz : N) (s : span) (c : cut) : span :=
  match c with
  | Sub off count => subspan sz s off count
  | First n => first sz s n
  | Last n => last sz s n
  | RemovePrefix n => remove_prefix sz s n
  | RemoveSuffix n => remove_suffix sz s n
  end.
Definition cut_sspan (s : sspan) (c : cut) : sspan :=
  match c with
  | Sub off count => s_subspan s off count
  | First n => s_first s n
  | Last n => s_last s n
  | RemovePrefix n => s_remove_prefix s n
  | RemoveSuffix n => s_remove_suffix s n
  end.
Definition cut_pspan {X R} (s : pspan X R) (c : cut) : pspan X R :=
  match c with
  | Sub off count => p_subspan s off count
  | First n => p_first s n
  | Last n => p_last s n
  | RemovePrefix n => p_remove_prefix s n
  | RemoveSuffix n => p_remove_suffix s n
  end.
(** memory_view has slice, remove_prefix and remove_suffix; reset(n) is a prefix. *)
Inductive mcut : Type :=
| MSlice (off count : N)
| MPrefix (n : N)
| MSuffix (n : N)
| MReset (n : N).
Definition cut_mview (sz : N) (v : mview) (c : mcut) : mview :=
  match c with
  | MSlice off count => slice sz v off count
  | MPrefix n => mv_remove_prefix sz v n
  | MSuffix n => mv_remove_suffix v n
  | MReset n => mv_reset_size v n
  end.
