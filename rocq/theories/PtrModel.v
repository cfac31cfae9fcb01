(** Model of the pointers which static_vector.hpp, small_vector.hpp and stride_span.hpp form, compare and
    use, by the letter of the standard: a pointer belongs to an array, may point to its elements or one
    past the last, and pointers are subtracted and ordered only within one array; a pointer into storage
    which was given back may not be used at all. The other models let pointers be numbers.

    What the elements hold does not matter for this, so there are none: constructing, moving from and
    destroying an element at p are all [deref p]. Sizes are taken to be below 2^64, and assertions to be
    compiled out. *)
From Coq Require Import List Arith ZArith Bool Lia.
From Verif Require Import Base SeqSpec.
Import ListNotations.

(** An array of so many elements, or nothing any more *)
Definition mem : Type := list (option nat).
Definition ptr : Type := (nat * Z)%type.

(** [Outside]: a pointer before or behind its array, or pointers of two arrays are ordered.
    [Dangling]: a pointer into an array which is gone is used. *)
Inductive fault : Type := Outside | Dangling.

(** [Rejected]: std::out_of_range or std::bad_alloc is thrown. *)
Inductive out (S A : Type) : Type :=
| Fine (a : A) (s : S)
| Rejected (s : S)
| Fault (f : fault)
| Endless.
Arguments Fine {S A} a s.
Arguments Rejected {S A} s.
Arguments Fault {S A} f.
Arguments Endless {S A}.

Definition P (S A : Type) : Type := S -> out S A.
Definition pret {S A} (a : A) : P S A := fun s => Fine a s.
Definition pbind {S A B} (m : P S A) (f : A -> P S B) : P S B := fun s =>
  match m s with
  | Fine a s' => f a s'
  | Rejected s' => Rejected s'
  | Fault x => Fault x
  | Endless => Endless
  end.
Notation "'do' x <- m ; f" := (pbind m (fun x => f)) (at level 200, x name, m at level 100, f at level 200).
Notation "m >> f" := (pbind m (fun _ => f)) (at level 150, right associativity).

Definition endless {S A} : P S A := fun _ => Endless.
Definition reject_if {S} (c : bool) : P S unit := fun s => if c then Rejected s else Fine tt s.

(** ** Pointers *)

Definition padd (m : mem) (p : ptr) (n : Z) : fault + ptr :=
  match nth_error m (fst p) with
  | Some (Some size) =>
      if ((0 <=? snd p + n) && (snd p + n <=? Z.of_nat size))%Z then inr (fst p, (snd p + n)%Z) else inl Outside
  | Some None => inl Dangling
  | None => inl Outside
  end.
Definition usable (m : mem) (p : ptr) : option fault :=
  match nth_error m (fst p) with
  | Some (Some _) => None
  | Some None => Some Dangling
  | None => Some Outside
  end.
(** p - q *)
Definition pdiff (m : mem) (p q : ptr) : fault + Z :=
  match usable m p, usable m q with
  | Some f, _ | _, Some f => inl f
  | None, None => if fst p =? fst q then inr (snd p - snd q)%Z else inl Outside
  end.
(** p == q, of any two pointers which are not dangling *)
Definition peq (m : mem) (p q : ptr) : fault + bool :=
  match usable m p, usable m q with
  | Some f, _ | _, Some f => inl f
  | None, None => inr ((fst p =? fst q) && (snd p =? snd q)%Z)
  end.
Definition deref (m : mem) (p : ptr) : fault + unit :=
  match nth_error m (fst p) with
  | Some (Some size) => if ((0 <=? snd p) && (snd p <? Z.of_nat size))%Z then inr tt else inl Outside
  | Some None => inl Dangling
  | None => inl Outside
  end.

(** * static_vector *)

(** static_vector.hpp:672-673. The array m_data is array 0. *)
Record sv : Type := mkSv { smem : mem; msize : nat }.
Definition schk {A} (f : mem -> fault + A) : P sv A := fun s =>
  match f (smem s) with inl x => Fault x | inr a => Fine a s end.
Definition sget : P sv nat := fun s => Fine (msize s) s.
Definition sset (n : nat) : P sv unit := fun s => Fine tt (mkSv (smem s) n).

Section Static.
Variable Capacity : nat.

Definition init_sv : sv := mkSv [Some Capacity] 0.

(** static_vector.hpp:342-376 begin, end *)
Definition sbegin : ptr := (0, 0%Z).
Definition send : P sv ptr := do n <- sget; schk (fun m => padd m sbegin (Z.of_nat n)).

(** static_vector.hpp:429-436 clear, the loop *)
Fixpoint sdestroy (fuel : nat) (p e : ptr) : P sv unit :=
  do same <- schk (fun m => peq m p e);
  if same : bool then pret tt else
  match fuel with
  | 0 => endless
  | S f => schk (fun m => deref m p) >> do p' <- schk (fun m => padd m p 1); sdestroy f p' e
  end.
Definition sclear : P sv unit :=
  do e <- send; sdestroy (S Capacity) sbegin e >> sset 0.

(** static_vector.hpp:438-462 push_back, emplace_back *)
Definition spush : P sv unit :=
  do n <- sget;
  reject_if (Capacity <=? n) >>
  do p <- schk (fun m => padd m sbegin (Z.of_nat n));
  schk (fun m => deref m p) >> sset (S n).

(** static_vector.hpp:631-635: for (auto p = end() - 1; p >= position; --p) *)
Fixpoint sgrow_loop (fuel : nat) (p position : ptr) (by_ : nat) : P sv unit :=
  do d <- schk (fun m => pdiff m p position);
  if (d <? 0)%Z then pret tt else
  match fuel with
  | 0 => endless
  | S f =>
      do q <- schk (fun m => padd m p (Z.of_nat by_));
      schk (fun m => deref m q) >> schk (fun m => deref m p) >>
      do p' <- schk (fun m => padd m p (-1)); sgrow_loop f p' position by_
  end.
(** static_vector.hpp:624-639 grow_at *)
Definition sgrow_at (position : ptr) (by_ : nat) : P sv ptr :=
  do n <- sget;
  reject_if (Capacity <? n + by_) >>
  if by_ =? 0 then pret position else
  do e <- send;
  do p <- schk (fun m => padd m e (-1));
  sgrow_loop (S Capacity) p position by_ >>
  sset (n + by_) >> pret position.

(** static_vector.hpp:656-660 *)
Fixpoint sshrink_loop (fuel : nat) (p np e : ptr) : P sv unit :=
  do same <- schk (fun m => peq m np e);
  if same : bool then pret tt else
  match fuel with
  | 0 => endless
  | S f =>
      schk (fun m => deref m p) >> schk (fun m => deref m np) >>
      do p' <- schk (fun m => padd m p 1);
      do np' <- schk (fun m => padd m np 1); sshrink_loop f p' np' e
  end.
(** static_vector.hpp:641-670 shrink_at *)
Definition sshrink_at (position : ptr) (num : nat) : P sv ptr :=
  do n <- sget;
  reject_if (n <? num) >>
  if n - num =? 0 then sclear >> pret sbegin else
  do e <- send;
  do np <- schk (fun m => padd m position (Z.of_nat num));
  sshrink_loop (S Capacity) position np e >>
  do p <- schk (fun m => padd m e (- Z.of_nat num));
  sdestroy (S Capacity) p e >>
  sset (n - num) >> pret position.

(** static_vector.hpp:424-427 pop_back *)
Definition spop : P sv unit :=
  do e <- send; do p <- schk (fun m => padd m e (-1)); sshrink_at p 1 >> pret tt.

(** Loops of 481-484 and 504-508 ([pos + i]), i done, k left *)
Fixpoint sfill (pos : ptr) (i k : nat) : P sv unit :=
  match k with
  | 0 => pret tt
  | S k' =>
      do p <- schk (fun m => padd m pos (Z.of_nat i));
      schk (fun m => deref m p) >> sfill pos (S i) k'
  end.
(** Loop of 493-496 ([++np]), k left *)
Fixpoint scopy (np : ptr) (k : nat) : P sv unit :=
  match k with
  | 0 => pret tt
  | S k' => schk (fun m => deref m np) >> do np' <- schk (fun m => padd m np 1); scopy np' k'
  end.

(** static_vector.hpp:530-558 resize: the loops; 594-622 assign: the loops *)
Fixpoint spop_while (fuel n : nat) : P sv unit :=
  do k <- sget;
  if n <? k then match fuel with 0 => endless | S f => spop >> spop_while f n end else pret tt.
Fixpoint spush_while (fuel n : nat) : P sv unit :=
  do k <- sget;
  if k <? n then match fuel with 0 => endless | S f => spush >> spush_while f n end else pret tt.
Definition sresize (n : nat) : P sv unit :=
  reject_if (Capacity <? n) >> spop_while (S Capacity) n >> spush_while (S Capacity) n.
Fixpoint spush_n (k : nat) : P sv unit :=
  match k with 0 => pret tt | S k' => spush >> spush_n k' end.
Definition sassign (k : nat) : P sv unit := sclear >> reject_if (Capacity <? k) >> spush_n k.

(** The iterators which are passed are begin() + pos. *)
Definition sat (pos : nat) : P sv ptr := schk (fun m => padd m sbegin (Z.of_nat pos)).
Definition scall (o : vop unit) : P sv unit :=
  match o with
  | PushBack _ => spush
  | PopBack => spop
  | Insert pos _ =>
      do q <- sat pos; do p <- sgrow_at q 1; schk (fun m => deref m p)
  | InsertN pos k _ => do q <- sat pos; do p <- sgrow_at q k; sfill p 0 k
  | InsertRange pos l => do q <- sat pos; do p <- sgrow_at q (length l); scopy p (length l)
  | Erase pos => do q <- sat pos; sshrink_at q 1 >> pret tt
  | EraseRange first last =>
      do q <- sat first; do r <- sat last;
      do d <- schk (fun m => pdiff m r q);
      sshrink_at q (Z.to_nat d) >> pret tt
  | Resize n | ResizeVal n _ => sresize n
  | Clear => sclear
  | AssignN k _ => sassign k
  | AssignRange l => sassign (length l)
  end.
End Static.

(** * small_vector *)

(** small_vector.hpp:1003-1006. m_static_data is array 0. *)
Record vec : Type := mkVec { vmem : mem; vb : ptr; ve : ptr; vcap : nat }.
Definition vchk {A} (f : mem -> fault + A) : P vec A := fun s =>
  match f (vmem s) with inl x => Fault x | inr a => Fine a s end.
Definition get_b : P vec ptr := fun s => Fine (vb s) s.
Definition get_e : P vec ptr := fun s => Fine (ve s) s.
Definition get_c : P vec nat := fun s => Fine (vcap s) s.
Definition set_b (p : ptr) : P vec unit := fun s => Fine tt (mkVec (vmem s) p (ve s) (vcap s)).
Definition set_e (p : ptr) : P vec unit := fun s => Fine tt (mkVec (vmem s) (vb s) p (vcap s)).
Definition set_c (c : nat) : P vec unit := fun s => Fine tt (mkVec (vmem s) (vb s) (ve s) c).

Section Small.
Variable SC RB : nat.
(** More than so many elements the allocator does not have. *)
Variable maxn : nat.

Definition init_vec : vec := mkVec [Some SC] (0, 0%Z) (0, 0%Z) SC.

Definition allocate (n : nat) : P vec ptr := fun s =>
  if maxn <? n then Rejected s
  else Fine (length (vmem s), 0%Z) (mkVec (vmem s ++ [Some n]) (vb s) (ve s) (vcap s)).
(** The pointer must be the beginning of an array the allocator gave out, n its size. *)
Definition deallocate (p : ptr) (n : nat) : P vec unit := fun s =>
  match nth_error (vmem s) (fst p) with
  | Some (Some size) =>
      if (0 <? fst p) && (snd p =? 0)%Z && (size =? n)
      then Fine tt (mkVec (upd (vmem s) (fst p) None) (vb s) (ve s) (vcap s)) else Fault Outside
  | Some None => Fault Dangling
  | None => Fault Outside
  end.

Definition static_begin : ptr := (0, 0%Z).
(** small_vector.hpp:709-712 is_static, 461-464 size *)
Definition is_static : P vec bool := do b <- get_b; vchk (fun m => peq m b static_begin).
Definition size : P vec nat :=
  do b <- get_b; do e <- get_e; do d <- vchk (fun m => pdiff m e b); pret (Z.to_nat d).

(** small_vector.hpp:725-731 destroy_all and the other loops which destroy from p to e *)
Fixpoint destroy_to (fuel : nat) (p e : ptr) : P vec unit :=
  do same <- vchk (fun m => peq m p e);
  if same : bool then pret tt else
  match fuel with
  | 0 => endless
  | S f => vchk (fun m => deref m p) >> do p' <- vchk (fun m => padd m p 1); destroy_to f p' e
  end.
Definition destroy_all : P vec unit :=
  do b <- get_b; do e <- get_e; do c <- get_c; destroy_to (S c) b e.

(** small_vector.hpp:967-973, the growth of the capacity (C15) *)
Fixpoint grown (fuel cap desired : nat) : option nat :=
  if cap <? desired then
    match fuel with 0 => None | S f => grown f ((cap * 3 + 1) / 2) desired end
  else Some cap.

(** small_vector.hpp:956-998 choose_data *)
Definition choose_data (desired : nat) : P vec (ptr * nat) :=
  do b <- get_b; do c <- get_c; do st <- is_static;
  if negb st then
    if c <? desired then
      match grown (S desired) c desired with
      | None => endless
      | Some c' => do p <- allocate c'; pret (p, c')
      end
    else if desired <? RB then pret (static_begin, SC)
    else pret (b, c)
  else if SC <? desired then do p <- allocate desired; pret (p, desired)
  else pret (b, c).

(** small_vector.hpp:774-778: for (auto p = m_end - num - 1; p >= position; --p) *)
Fixpoint grow_loop (fuel : nat) (p position : ptr) (num : nat) : P vec unit :=
  do d <- vchk (fun m => pdiff m p position);
  if (d <? 0)%Z then pret tt else
  match fuel with
  | 0 => endless
  | S f =>
      do q <- vchk (fun m => padd m p (Z.of_nat num));
      vchk (fun m => deref m q) >> vchk (fun m => deref m p) >>
      do p' <- vchk (fun m => padd m p (-1)); grow_loop f p' position num
  end.

(** small_vector.hpp:791-794, 797-800: [for (; x != stop; ++p, ++np) construct(np, std::move( *p))] where x
    is np ([on_np]) or p; also 847-851 and 858-862, which destroy *p too. Gives p and np. *)
Fixpoint transfer (fuel : nat) (on_np : bool) (p np stop : ptr) : P vec (ptr * ptr) :=
  do same <- vchk (fun m => peq m (if on_np then np else p) stop);
  if same : bool then pret (p, np) else
  match fuel with
  | 0 => endless
  | S f =>
      vchk (fun m => deref m np) >> vchk (fun m => deref m p) >>
      do p' <- vchk (fun m => padd m p 1);
      do np' <- vchk (fun m => padd m np 1); transfer f on_np p' np' stop
  end.

(** small_vector.hpp:759-820 grow_at *)
Definition grow_at (position : ptr) (num : nat) : P vec ptr :=
  do b <- get_b; do e <- get_e; do c <- get_c;
  do d1 <- vchk (fun m => pdiff m position b);
  do d2 <- vchk (fun m => pdiff m position e);
  reject_if ((d1 <? 0) || (0 <? d2))%Z >>
  do s <- size;
  do cdr <- choose_data (s + num);
  do same <- vchk (fun m => peq m (fst cdr) b);
  if same : bool then
    do e' <- vchk (fun m => padd m b (Z.of_nat (s + num)));
    set_e e' >>
    do p <- vchk (fun m => padd m e' (- Z.of_nat num));
    do p <- vchk (fun m => padd m p (-1));
    grow_loop (S c) p position num >>
    pret position
  else
    do off <- vchk (fun m => pdiff m position b);
    do position <- vchk (fun m => padd m (fst cdr) off);
    do r <- transfer (S c) true b (fst cdr) position;
    do np <- vchk (fun m => padd m (snd r) (Z.of_nat num));
    transfer (S c) false (fst r) np e >>
    destroy_to (S c) b e >>
    do st <- is_static;
    (if st : bool then pret tt else deallocate b c) >>
    set_b (fst cdr) >>
    do e' <- vchk (fun m => padd m (fst cdr) (Z.of_nat (s + num)));
    set_e e' >> set_c (snd cdr) >>
    pret position.

(** small_vector.hpp:560-581 clear *)
Definition clear : P vec unit :=
  destroy_all >>
  do b <- get_b; do c <- get_c;
  do st <- (if 0 <? RB then is_static else pret true);
  if negb st then
    deallocate b c >> set_e static_begin >> set_b static_begin >> set_c SC
  else set_e b.

(** small_vector.hpp:840-844, 836-840 *)
Fixpoint shrink_loop (fuel : nat) (p np e : ptr) : P vec unit :=
  do same <- vchk (fun m => peq m np e);
  if same : bool then pret tt else
  match fuel with
  | 0 => endless
  | S f =>
      vchk (fun m => deref m p) >> vchk (fun m => deref m np) >>
      do p' <- vchk (fun m => padd m p 1);
      do np' <- vchk (fun m => padd m np 1); shrink_loop f p' np' e
  end.

(** small_vector.hpp:822-888 shrink_at. [position - m_begin] at 881 comes after the deallocation (879). *)
Definition shrink_at (position : ptr) (num : nat) : P vec ptr :=
  do b <- get_b; do e <- get_e; do c <- get_c;
  do d1 <- vchk (fun m => pdiff m position b);
  do d2 <- vchk (fun m => pdiff m position e);
  do q <- vchk (fun m => padd m position (Z.of_nat num));
  do d3 <- vchk (fun m => pdiff m q e);
  reject_if ((d1 <? 0) || (0 <? d2) || (0 <? d3))%Z >>
  do s <- size;
  if s - num =? 0 then clear >> get_e else
  do cdr <- choose_data (s - num);
  do same <- vchk (fun m => peq m (fst cdr) b);
  if same : bool then
    do np <- vchk (fun m => padd m position (Z.of_nat num));
    shrink_loop (S c) position np e >>
    do p <- vchk (fun m => padd m e (- Z.of_nat num));
    destroy_to (S c) p e >>
    do e' <- vchk (fun m => padd m e (- Z.of_nat num));
    set_e e' >> pret position
  else
    do r <- transfer (S c) false b (fst cdr) position;
    do stop <- vchk (fun m => padd m position (Z.of_nat num));
    destroy_to (S c) (fst r) stop >>
    do stop' <- vchk (fun m => padd m (fst cdr) (Z.of_nat (s - num)));
    do r' <- transfer (S c) true stop (snd r) stop';
    deallocate b c >>
    do off <- vchk (fun m => pdiff m position b);
    do position <- vchk (fun m => padd m (fst cdr) off);
    set_b (fst cdr) >> set_e (snd r') >> set_c SC >>
    pret position.

(** small_vector.hpp:472-504 reserve; [m_begin + i], [cdr.ptr + i] in the loops, k left *)
Fixpoint move_all (src dst : ptr) (i k : nat) : P vec unit :=
  match k with
  | 0 => pret tt
  | S k' =>
      do p <- vchk (fun m => padd m src (Z.of_nat i));
      do np <- vchk (fun m => padd m dst (Z.of_nat i));
      vchk (fun m => deref m np) >> vchk (fun m => deref m p) >> move_all src dst (S i) k'
  end.
Definition reserve (n : nat) : P vec unit :=
  do c <- get_c; do b <- get_b;
  if n <=? c then pret tt else
  do cdr <- choose_data n;
  do s <- size;
  move_all b (fst cdr) 0 s >>
  move_all b b 0 s >>
  do st <- is_static;
  (if st : bool then pret tt else deallocate b c) >>
  set_b (fst cdr) >>
  do e' <- vchk (fun m => padd m (fst cdr) (Z.of_nat s));
  set_e e' >> set_c (snd cdr).

(** small_vector.hpp:512-544 shrink_to_fit *)
Definition shrink_to_fit : P vec unit :=
  do s <- size; do c <- get_c; do b <- get_b; do e <- get_e;
  if s =? c then pret tt else
  do st <- is_static;
  if st : bool then pret tt else
  (if s <? SC then set_e static_begin >> set_b static_begin >> set_c SC
   else do p <- allocate s; set_e p >> set_b p >> set_c s) >>
  do nb <- get_b;
  do r <- transfer (S c) false b nb e;
  set_e (snd r) >>
  deallocate b c.

(** small_vector.hpp:549-557 revert_to_static *)
Definition revert_to_static : P vec unit :=
  do s <- size; do st <- is_static;
  if st : bool then pret tt else
  if SC <? s then pret tt else shrink_to_fit.

(** small_vector.hpp:675-707 resize *)
Fixpoint cut_while (fuel : nat) (new_end : ptr) : P vec unit :=
  do e <- get_e;
  do d <- vchk (fun m => pdiff m e new_end);
  if (0 <? d)%Z then
    match fuel with
    | 0 => endless
    | S f => do e' <- vchk (fun m => padd m e (-1)); set_e e' >> vchk (fun m => deref m e') >> cut_while f new_end
    end
  else pret tt.
Fixpoint extend_while (fuel : nat) (new_end : ptr) : P vec unit :=
  do e <- get_e;
  do d <- vchk (fun m => pdiff m new_end e);
  if (0 <? d)%Z then
    match fuel with
    | 0 => endless
    | S f => do e' <- vchk (fun m => padd m e 1); set_e e' >> vchk (fun m => deref m e) >> extend_while f new_end
    end
  else pret tt.
Definition resize (n : nat) : P vec unit :=
  reserve n >>
  do b <- get_b; do c <- get_c;
  do new_end <- vchk (fun m => padd m b (Z.of_nat n));
  cut_while (S c) new_end >> extend_while (S c) new_end.

(** small_vector.hpp:583-629: the loops [pos + i] and [++np] *)
Fixpoint fill (pos : ptr) (i k : nat) : P vec unit :=
  match k with
  | 0 => pret tt
  | S k' =>
      do p <- vchk (fun m => padd m pos (Z.of_nat i));
      vchk (fun m => deref m p) >> fill pos (S i) k'
  end.
Fixpoint copy (np : ptr) (k : nat) : P vec unit :=
  match k with
  | 0 => pret tt
  | S k' => vchk (fun m => deref m np) >> do np' <- vchk (fun m => padd m np 1); copy np' k'
  end.

(** small_vector.hpp:319-336 assign, 890-950: [construct(m_end, ..); ++m_end] *)
Fixpoint append (k : nat) : P vec unit :=
  match k with
  | 0 => pret tt
  | S k' =>
      do e <- get_e;
      vchk (fun m => deref m e) >>
      do e' <- vchk (fun m => padd m e 1); set_e e' >> append k'
  end.
Definition assign (k : nat) : P vec unit :=
  destroy_all >>
  do cdr <- choose_data k;
  set_e (fst cdr) >>
  append k >>
  do b <- get_b; do c <- get_c;
  do st <- is_static;
  do same <- (if st : bool then pret true else vchk (fun m => peq m b (fst cdr)));
  (if same : bool then pret tt else deallocate b c) >>
  set_b (fst cdr) >> set_c (snd cdr).

Inductive smallop : Type :=
| Seq (o : vop unit)
| Reserve (n : nat)
| ShrinkToFit
| RevertToStatic.

Definition at_ (pos : nat) : P vec ptr := do b <- get_b; vchk (fun m => padd m b (Z.of_nat pos)).
Definition call (o : smallop) : P vec unit :=
  match o with
  | Seq (PushBack _) => do e <- get_e; do p <- grow_at e 1; vchk (fun m => deref m p)
  | Seq PopBack => do e <- get_e; do p <- vchk (fun m => padd m e (-1)); shrink_at p 1 >> pret tt
  | Seq (Insert pos _) => do q <- at_ pos; do p <- grow_at q 1; vchk (fun m => deref m p)
  | Seq (InsertN pos k _) => do q <- at_ pos; do p <- grow_at q k; fill p 0 k
  | Seq (InsertRange pos l) => do q <- at_ pos; do p <- grow_at q (length l); copy p (length l)
  | Seq (Erase pos) => do q <- at_ pos; shrink_at q 1 >> pret tt
  | Seq (EraseRange first last) =>
      do q <- at_ first; do r <- at_ last;
      do d <- vchk (fun m => pdiff m r q);
      reject_if (d <? 0)%Z >> shrink_at q (Z.to_nat d) >> pret tt
  | Seq (Resize n) | Seq (ResizeVal n _) => resize n
  | Seq Clear => clear
  | Seq (AssignN k _) => assign k
  | Seq (AssignRange l) => assign (length l)
  | Reserve n => reserve n
  | ShrinkToFit => shrink_to_fit
  | RevertToStatic => revert_to_static
  end.
End Small.

(** A history; a call which is rejected is followed by the next one. *)
Fixpoint prun {S O} (call : O -> P S unit) (os : list O) : P S unit :=
  match os with
  | [] => pret tt
  | o :: os' => fun s =>
      match call o s with
      | Fine _ s' | Rejected s' => prun call os' s'
      | Fault f => Fault f
      | Endless => Endless
      end
  end.

(** * stride_span *)

(** stride_span.hpp:321-324, within an array of bytes (array 0) *)
Record sspan : Type := mkSspan { ss_begin : Z; ss_stride : nat; ss_num : nat }.
Definition mchk {A} (f : mem -> fault + A) : P mem A := fun m =>
  match f m with inl x => Fault x | inr a => Fine a m end.
Definition sit (s : sspan) (n : nat) : P mem ptr :=
  mchk (fun m => padd m (0, ss_begin s) (Z.of_nat (n * ss_stride s))).

(** stride_span.hpp:238-261 end, 202-209 operator*, operator++: a range-based for statement. The elements have
    sz bytes. Gives the offsets which were visited. *)
Fixpoint ss_loop (fuel sz : nat) (s : sspan) (p e : ptr) : P mem (list Z) :=
  do same <- mchk (fun m => peq m p e);
  if same : bool then pret [] else
  match fuel with
  | 0 => endless
  | S f =>
      mchk (fun m => padd m p (Z.of_nat sz)) >>
      do p' <- mchk (fun m => padd m p (Z.of_nat (ss_stride s)));
      do l <- ss_loop f sz s p' e; pret (snd p :: l)
  end.
Definition ss_iterate (sz : nat) (s : sspan) : P mem (list Z) :=
  do e <- sit s (ss_num s); ss_loop (S (ss_num s)) sz s (0, ss_begin s) e.

(** stride_span.hpp:146-156 at, for all indices in order: for (size_t i = 0; i < size(); ++i), k left *)
Fixpoint ss_index (sz : nat) (s : sspan) (i k : nat) : P mem (list Z) :=
  match k with
  | 0 => pret []
  | S k' =>
      do p <- sit s i;
      mchk (fun m => padd m p (Z.of_nat sz)) >>
      do l <- ss_index sz s (S i) k'; pret (snd p :: l)
  end.

(** stride_span.hpp:348-354 make_stride_span_from_array, of an array of len elements of sz bytes *)
Definition from_array (sz len noffset nstride : nat) : sspan :=
  mkSspan (Z.of_nat (noffset * sz)) (sz * nstride) ((len - noffset + nstride - 1) / nstride).
(** stride_span.hpp:356-361 make_stride_span_member_view: a field at an offset in structures of ssz bytes *)
Definition member_view (ssz len field : nat) : sspan := mkSspan (Z.of_nat field) ssz len.
