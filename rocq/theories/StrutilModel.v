(** Model of include/itlib/strutil.hpp.

    A string_view is a pointer and a length; the characters are in memory. Sizes are 64 bits
    wide and wrap. A position beyond the end given to compare throws std::out_of_range (which in these
    noexcept functions terminates the program); remove_prefix and remove_suffix of more than the
    size, and reading where there is no character, are undefined behaviour. The loops
    carry fuel; running out of it is [Diverge]. *)
From Coq Require Import List Arith NArith Bool.
From Verif Require Import Base VecCommon SpanModel.
Import ListNotations.
Open Scope N_scope.

Section Strutil.
Context {C : Type}.
Variable cmp : C -> C -> comparison.   (* char_traits::lt, eq *)
Variable mem : N -> option C.

Record sv : Type := mkSv { sv_ptr : N; sv_size : N }.

(** make_string_view of iterators, 71-76; begin == end gives a null view *)
Definition make_string_view (b e : N) : sv :=
  if b =? e then mkSv 0 0 else mkSv b (usub e b).
(** make_string_view of pointers, 79-82 *)
Definition make_string_view_p (b e : N) : sv := mkSv b (usub e b).

(** The characters of a view. *)
Fixpoint read (n : nat) (p : N) : option (list C) :=
  match n with
  | O => Some []
  | S n' =>
      match mem p, read n' (p + 1) with
      | Some c, Some l => Some (c :: l)
      | _, _ => None
      end
  end.
Definition chars (v : sv) : M unit (list C) :=
  match read (N.to_nat (sv_size v)) (sv_ptr v) with Some l => ret l | None => ub end.

(** basic_string_view::compare: of the characters, then of the lengths *)
Fixpoint compare_chars (a b : list C) : comparison :=
  match a, b with
  | [], [] => Eq
  | [], _ => Lt
  | _, [] => Gt
  | x :: a', y :: b' => match cmp x y with Eq => compare_chars a' b' | c => c end
  end.
(** str.compare(pos, n, other): of the part which starts at pos, n characters or
    fewer if the string ends before *)
Definition compare (s : sv) (pos n : N) (other : sv) : M unit comparison :=
  if sv_size s <? pos then throw OutOfRange else
  let part := mkSv (sv_ptr s + pos) (N.min n (sv_size s - pos)) in
  let* a := chars part in
  let* b := chars other in
  ret (compare_chars a b).

Definition is_eq (c : comparison) : bool := match c with Eq => true | _ => false end.

(** 84-87 *)
Definition starts_with (str prefix : sv) : M unit bool :=
  if sv_size prefix <=? sv_size str then
    let* c := compare str 0 (sv_size prefix) prefix in ret (is_eq c)
  else ret false.
(** 89-92 *)
Definition ends_with (str suffix : sv) : M unit bool :=
  if sv_size suffix <=? sv_size str then
    let* c := compare str (usub (sv_size str) (sv_size suffix)) (sv_size suffix) suffix in ret (is_eq c)
  else ret false.

(** basic_string_view::remove_prefix, remove_suffix *)
Definition drop_prefix (s : sv) (n : N) : M unit sv :=
  if sv_size s <? n then ub else ret (mkSv (sv_ptr s + n) (sv_size s - n)).
Definition drop_suffix (s : sv) (n : N) : M unit sv :=
  if sv_size s <? n then ub else ret (mkSv (sv_ptr s) (sv_size s - n)).

Fixpoint while (fuel : nat) (test : sv -> M unit bool) (body : sv -> M unit sv) (s : sv) : M unit sv :=
  match fuel with
  | O => diverge
  | S fuel' =>
      let* b := test s in
      if (b : bool) then (let* s' := body s in while fuel' test body s') else ret s
  end.

(** 94-99 *)
Definition remove_prefix_all (fuel : nat) (str prefix : sv) : M unit sv :=
  if sv_size prefix =? 0 then ret str
  else while fuel (fun s => starts_with s prefix) (fun s => drop_prefix s (sv_size prefix)) str.
(** 101-106 *)
Definition remove_suffix_all (fuel : nat) (str suffix : sv) : M unit sv :=
  if sv_size suffix =? 0 then ret str
  else while fuel (fun s => ends_with s suffix) (fun s => drop_suffix s (sv_size suffix)) str.
End Strutil.
