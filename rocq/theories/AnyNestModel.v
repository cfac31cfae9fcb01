(** itlib/any.hpp once more: objects in anys which have anys as members, which hold such
    objects in turn (AnyModel.v has anys of plain objects only).

    A block holds an object: a value and the anys which are its members. An any is a variable
    or such a member, so what it is reached through may be destroyed while it is used. Use of
    anything in a block which was given back, or of an object not constructed yet, is [UB].

    Simplified: one allocator; all member anys are empty when an object is emplaced, and are
    assigned to afterwards; members are constructed in order and destroyed in reverse, and the
    value itself does nothing when it is destroyed. Which allocations fail is a parameter.
    Recursion is on a number of steps; [Diverge] when they do not suffice. *)
From Coq Require Import List Arith Bool.
From Verif Require Import Base.
Import ListNotations.

Fixpoint upd {A} (l : list A) (i : nat) (x : A) : list A :=
  match l, i with
  | [], _ => []
  | _ :: l', 0 => x :: l'
  | y :: l', S i' => y :: upd l' i' x
  end.

Section AnyNest.
Context {V : Type}.
Variable copyable : V -> bool.       (* std::is_copy_constructible of the type of the value *)
Variable lay : V -> nat * nat.       (* sizeof and alignof of the obj_block_for its type *)
Variable avail : nat -> bool.        (* does the n-th allocation succeed? *)

(** m_block (any.hpp 143) *)
Definition slot : Type := option nat.
(** What was allocated; the object (value, members), 99-136; its header, 87-89 *)
Record block : Type := mkB {
  given : nat * nat;
  body : option (V * list slot);
  header : option (nat * nat)
}.
Record st : Type := mkSt { heap : nat -> option block; fresh : nat; roots : list slot }.

(** An any: a variable, or the k-th member of the object in block b. *)
Inductive ref : Type :=
| Root (i : nat)
| Kid (b k : nat).
Definition same_ref (x y : ref) : bool :=
  match x, y with
  | Root i, Root j => i =? j
  | Kid b k, Kid c j => (b =? c) && (k =? j)
  | _, _ => false
  end.

Definition set_heap (x : nat) (o : option block) (s : st) : st :=
  mkSt (fun y => if y =? x then o else heap s y) (fresh s) (roots s).

(** The m_block of an any, if the any exists *)
Definition getr (r : ref) (s : st) : option slot :=
  match r with
  | Root i => nth_error (roots s) i
  | Kid b k =>
      match heap s b with
      | Some (mkB _ (Some (_, l)) _) => nth_error l k
      | _ => None
      end
  end.
Definition setr (r : ref) (x : slot) (s : st) : st :=
  match r with
  | Root i => mkSt (heap s) (fresh s) (upd (roots s) i x)
  | Kid b k =>
      match heap s b with
      | Some (mkB g (Some (v, l)) h) => set_heap b (Some (mkB g (Some (v, upd l k x)) h)) s
      | _ => s
      end
  end.
Definition slot_of (r : ref) : M st slot := fun s =>
  match getr r s with Some x => Ok x s | None => UB end.
Definition put_slot (r : ref) (x : slot) : M st unit := fun s =>
  match getr r s with Some _ => Ok tt (setr r x s) | None => UB end.
Definition blk (b : nat) : M st block := fun s =>
  match heap s b with Some k => Ok k s | None => UB end.
Definition put_blk (b : nat) (k : block) : M st unit := fun s =>
  match heap s b with Some _ => Ok tt (set_heap b (Some k) s) | None => UB end.

(** 67-77 allocate_bytes *)
Definition allocate (ly : nat * nat) : M st nat := fun s =>
  let n := fresh s in
  if avail n
  then Ok n (mkSt (heap (set_heap n (Some (mkB ly None None)) s)) (S n) (roots s))
  else Throw BadAlloc (mkSt (heap s) (S n) (roots s)).

(** 258-261 free_block: there may be no object left in the block, and deallocate_bytes must be
    told what was asked for. *)
Definition free_block (r : ref) (ly : nat * nat) : M st unit :=
  let* x := slot_of r in
  match x with
  | None => ub
  | Some b =>
      let* k := blk b in
      (match body k with
       | Some _ => ub
       | None =>
           if (fst (given k) =? fst ly) && (snd (given k) =? snd ly)
           then (fun s => Ok tt (set_heap b None s)) else ub
       end) ;;;
      put_slot r None
  end.

(** 209-215 reset; ~obj_block destroys the members, the last one first. *)
Fixpoint reset (n : nat) (r : ref) : M st unit :=
  match n with
  | 0 => fun _ => Diverge
  | S n' =>
      let* x := slot_of r in
      match x with
      | None => ret tt
      | Some b =>
          let* k := blk b in
          match body k, header k with
          | Some (v, kids), Some ly =>
              (fix each (c : nat) : M st unit :=
                 match c with
                 | 0 => ret tt
                 | S c' => reset n' (Kid b c') ;;; each c'
                 end) (length kids) ;;;
              put_blk b (mkB (given k) None None) ;;;
              free_block r ly
          | _, _ => ub
          end
      end
  end.
Fixpoint destroy_kids (n : nat) (b c : nat) : M st unit :=
  match c with
  | 0 => ret tt
  | S c' => reset n (Kid b c') ;;; destroy_kids n b c'
  end.

(** catch (...) { ...; throw; }, and what happens when a constructor is left by an exception *)
Definition on_throw {A} (m : M st A) (h : M st unit) : M st A := fun s =>
  match m s with
  | Throw e s' =>
      match h s' with
      | Ok _ s'' => Throw e s''
      | Throw _ _ => UB
      | UB => UB
      | Diverge => Diverge
      end
  | r => r
  end.

(** The members of the object in block b: one is added, the last one is no more. *)
Definition push_kid (b : nat) : M st unit :=
  let* k := blk b in
  match body k with
  | Some (v, l) => put_blk b (mkB (given k) (Some (v, l ++ [None])) (header k))
  | None => ub
  end.
Definition drop_kid (b c : nat) : M st unit :=
  let* k := blk b in
  match body k with
  | Some (v, l) => put_blk b (mkB (given k) (Some (v, firstn c l)) (header k))
  | None => ub
  end.
Definition no_object (b : nat) : M st unit :=
  let* k := blk b in put_blk b (mkB (given k) None None).

(** 236-250 copy_from; and clone_to (112-127), which copy constructs the object: its value and
    then its members, by any(const any&), 162-165. *)
Fixpoint copy_from (n : nat) (r o : ref) : M st unit :=
  match n with
  | 0 => fun _ => Diverge
  | S n' =>
      reset n r ;;;
      let* x := slot_of o in
      match x with
      | None => ret tt
      | Some b =>
          let* k := blk b in
          match header k with
          | None => ub
          | Some ly =>
              let* b' := allocate ly in
              put_slot r (Some b') ;;;
              on_throw
                (match body k with
                 | None => ub
                 | Some (v, kids) =>
                     if copyable v then
                       let* k' := blk b' in
                       put_blk b' (mkB (given k') (Some (v, [])) None) ;;;
                       (fix each (c i : nat) : M st unit :=
                          match c with
                          | 0 => ret tt
                          | S c' =>
                              push_kid b' ;;;
                              on_throw (copy_from n' (Kid b' i) (Kid b i))
                                (drop_kid b' i ;;; destroy_kids n' b' i ;;; no_object b') ;;;
                              each c' (S i)
                          end) (length kids) 0 ;;;
                       let* k'' := blk b' in
                       put_blk b' (mkB (given k'') (body k'') (Some ly))
                     else throw BadCast
                 end)
                (let* y := slot_of o in
                 match y with
                 | None => ub
                 | Some c =>
                     let* q := blk c in
                     match header q with
                     | Some ly' => free_block r ly'
                     | None => ub
                     end
                 end)
          end
      end
  end.

(** 153-159 operator=(any&&) *)
Definition move_assign (n : nat) (r o : ref) : M st unit :=
  if same_ref o r then ret tt else
  reset n r ;;;
  let* x := slot_of o in
  put_slot r x ;;;
  put_slot o None.

(** 217-234 emplace, of an object with [c] member anys *)
Definition emplace (n : nat) (r : ref) (v : V) (c : nat) : M st unit :=
  reset n r ;;;
  let* b := allocate (lay v) in
  put_slot r (Some b) ;;;
  put_blk b (mkB (lay v) (Some (v, repeat None c)) (Some (lay v))).

(** any_cast, to the type of the value *)
Definition peek (r : ref) : M st (option V) :=
  let* x := slot_of r in
  match x with
  | None => ret None
  | Some b =>
      let* k := blk b in
      match body k with
      | Some (v, _) => ret (Some v)
      | None => ub
      end
  end.

(** A path: a variable, a member of the object in it, a member of the object in that, ... *)
Fixpoint walk (r : ref) (p : list nat) : M st ref :=
  match p with
  | [] => let* _ := slot_of r in ret r
  | k :: p' =>
      let* x := slot_of r in
      match x with
      | Some b => walk (Kid b k) p'
      | None => ub
      end
  end.
Definition path : Type := (nat * list nat)%type.
Definition find (p : path) : M st ref := walk (Root (fst p)) (snd p).

Inductive op : Type :=
| Emplace (p : path) (v : V) (c : nat)
| Copy (p q : path)            (* p = q *)
| Move (p q : path)            (* p = std::move(q) *)
| Reset (p : path)
| Peek (p : path).
Inductive ans : Type :=
| Done
| Raised (e : exn)
| Saw (v : option V).

Definition call (n : nat) (o : op) : M st ans :=
  match o with
  | Emplace p v c => let* r := find p in emplace n r v c ;;; ret Done
  | Copy p q => let* r := find p in let* o := find q in copy_from n r o ;;; ret Done
  | Move p q => let* r := find p in let* o := find q in move_assign n r o ;;; ret Done
  | Reset p => let* r := find p in reset n r ;;; ret Done
  | Peek p => let* r := find p in let* v := peek r in ret (Saw v)
  end.
Fixpoint run (n : nat) (os : list op) : M st (list ans) :=
  match os with
  | [] => ret []
  | o :: os' => fun s =>
      let rest a s' := (let* l := run n os' in ret (a :: l)) s' in
      match call n o s with
      | Ok a s' => rest a s'
      | Throw e s' => rest (Raised e) s'
      | UB => UB
      | Diverge => Diverge
      end
  end.
(** The variables go out of scope. *)
Fixpoint leave (n : nat) (c : nat) : M st unit :=
  match c with
  | 0 => ret tt
  | S c' => reset n (Root c') ;;; leave n c'
  end.
Definition start (c : nat) : st := mkSt (fun _ => None) 0 (repeat None c).
End AnyNest.
Arguments st : clear implicits.
Arguments block : clear implicits.
Arguments op : clear implicits.
Arguments ans : clear implicits.
