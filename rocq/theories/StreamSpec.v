(** Specification of the memory stream buffers and of redirect_rstream. *)
From Coq Require Import List Arith NArith ZArith Bool.
From Verif Require Import Base VecCommon StreamModel.
Import ListNotations.

(** What the container has to promise: resize within the capacity keeps it, beyond it
    gives at least what is asked for, and capacities are sizes it can have. *)
Definition good_policy (P : policy) : Prop :=
  (forall c n, n <= c -> new_cap P c n = c) /\
  (forall c n, c < n -> n <= max_sz P -> n <= new_cap P c n <= max_sz P) /\
  cap0 P <= max_sz P.

(** data() of a default constructed container is null: std::vector. Otherwise
    (std::string, static_vector, small_vector) it points to something. *)
Definition fresh_null (P : policy) : bool := null_data P && (cap0 P =? 0).

Definition int_max1 : Z := 2147483648%Z.  (* 2^31 *)

Section OSpec.
Context {C : Type}.
Variable P : policy.

(** * Writes only: the data written since the last clear or get_container *)

Definition wstep (l : list C) (o : oop C) : list C * oans C :=
  let write str :=
    if max_sz P <? length l + length str then (l, OaThrow LengthError)
    else (l ++ str, OaNone) in
  match o with
  | OPut c => write [c]
  | OWrite str => write str
  | OTell => (l, OaPos (Z.of_nat (length l)))
  | OPeek => (l, OaData l)
  | OClear => ([], OaNone)
  | OGet => ([], OaData l)
  | OSeekBeg _ | OSeekCur _ => (l, OaNone)
  end.
Definition is_seek (o : oop C) : bool :=
  match o with OSeekBeg _ | OSeekCur _ => true | _ => false end.

(** No seeks; blocks below 2^31 characters; and unless a fresh container's data() is null,
    nothing but clear() right after get_container(). *)
Fixpoint walong (taken : bool) (os : list (oop C)) : Prop :=
  match os with
  | [] => True
  | o :: os' =>
      is_seek o = false /\
      (taken = true -> o = OClear) /\
      (forall str, o = OWrite str -> (Z.of_nat (length str) < int_max1)%Z) /\
      walong (match o with OGet => negb (fresh_null P) | _ => false end) os'
  end.
Fixpoint wrun (l : list C) (os : list (oop C)) : list C * list (oans C) :=
  match os with
  | [] => (l, [])
  | o :: os' =>
      let '(l', a) := wstep l o in
      let '(l'', rs) := wrun l' os' in (l'', a :: rs)
  end.

(** * With seeks: a file and a position in it *)

Inductive file : Type :=
| Held (l : list C) (pos : nat)
| Taken.                     (* by get_container, with a non-null fresh container *)

(** [str] written over [l] from [pos] on *)
Definition overwrite (l : list C) (pos : nat) (str : list C) : list C :=
  firstn pos l ++ str ++ skipn (pos + length str) l.

Definition fstep (f : file) (o : oop C) : file * oans C :=
  match f with
  | Taken => match o with OClear => (Held [] 0, OaNone) | _ => (Taken, OaNone) end
  | Held l pos =>
      let write str :=
        if max_sz P <? pos + length str then (f, OaThrow LengthError)
        else (Held (overwrite l pos str) (pos + length str), OaNone) in
      match o with
      | OPut c => write [c]
      | OWrite str => write str
      | OSeekBeg off => (Held l (Z.to_nat off), OaPos off)
      | OSeekCur off => (Held l (Z.to_nat (Z.of_nat pos + off)), OaPos (Z.of_nat pos + off))
      | OTell => (f, OaPos (Z.of_nat pos))
      | OPeek => (f, OaData (firstn pos l))
      | OClear => (Held [] 0, OaNone)
      | OGet => (if fresh_null P then Held [] 0 else Taken, OaData (firstn pos l))
      end
  end.

(** Seeks stay within the data written, and positions and blocks below 2^31. *)
Definition fok (f : file) (o : oop C) : Prop :=
  match f with
  | Taken => o = OClear
  | Held l pos =>
      match o with
      | OWrite str => (Z.of_nat (length str) < int_max1)%Z
      | OSeekBeg off => (0 <= off <= Z.of_nat (length l) /\ off < int_max1)%Z
      | OSeekCur off =>
          (0 <= Z.of_nat pos + off <= Z.of_nat (length l) /\ Z.of_nat pos + off < int_max1)%Z
      | _ => True
      end
  end.
Fixpoint falong (f : file) (os : list (oop C)) : Prop :=
  match os with
  | [] => True
  | o :: os' => fok f o /\ falong (fst (fstep f o)) os'
  end.
Fixpoint frun (f : file) (os : list (oop C)) : file * list (oans C) :=
  match os with
  | [] => (f, [])
  | o :: os' =>
      let '(f', a) := fstep f o in
      let '(f'', rs) := frun f' os' in (f'', a :: rs)
  end.

(** The buffer holds the file. *)
Definition holds_file (s : ob C) (f : file) : Prop :=
  match f with
  | Taken => fresh_null P = false /\ s = mkOb [] (cap0 P) PNull PNull
  | Held l pos =>
      ocap s <= max_sz P /\ length (odata s) <= ocap s /\
      (exists t, odata s = l ++ t) /\ pos <= length l /\
      (if null_data P && (ocap s =? 0) then pptr s = PNull /\ epptr s = PNull
       else pptr s = POff pos /\ epptr s = POff (length (odata s)))
  end.
End OSpec.
Arguments file : clear implicits.

Section ISpec.
Context {C : Type}.
Variable mem : list C.

Definition target (pos : nat) (off : Z) (w : way) : Z :=
  match w with
  | Beg => off
  | Cur => Z.of_nat pos + off
  | End => Z.of_nat (length mem) + off
  end.

Definition istep (pos : nat) (o : iop) : nat * ians C :=
  match o with
  | IPeek => (pos, IaChar (nth_error mem pos))
  | IGet => (if pos <? length mem then pos + 1 else pos, IaChar (nth_error mem pos))
  | IUnget =>
      match pos with
      | 0 => (0, IaChar None)
      | S p => (p, IaChar (nth_error mem p))
      end
  | IRead n =>
      let l := firstn n (skipn pos mem) in (pos + length l, IaData l)
  | ISeek off w => (Z.to_nat (target pos off w), IaPos (target pos off w))
  | ITell => (pos, IaPos (Z.of_nat pos))
  | ISize => (pos, IaPos (Z.of_nat (length mem)))
  end.
(** Seeks stay within the memory. *)
Definition iok (pos : nat) (o : iop) : Prop :=
  match o with
  | ISeek off w => (0 <= target pos off w <= Z.of_nat (length mem))%Z
  | _ => True
  end.
Fixpoint ialong (pos : nat) (os : list iop) : Prop :=
  match os with
  | [] => True
  | o :: os' => iok pos o /\ ialong (fst (istep pos o)) os'
  end.
Fixpoint irun_spec (pos : nat) (os : list iop) : nat * list (ians C) :=
  match os with
  | [] => (pos, [])
  | o :: os' =>
      let '(p, a) := istep pos o in
      let '(p', rs) := irun_spec p os' in (p', a :: rs)
  end.
End ISpec.

Section RSpec.
Context {C : Type}.
Variable content : list C.

(** Everything done with the stream stays within the contents; then what is read, and the
    position afterwards. *)
Fixpoint plain (c : cmd) (pos : nat) : option (list (list C) * nat) :=
  match c with
  | Read n =>
      if pos + n <=? length content
      then Some ([firstn n (skipn pos content)], pos + n) else None
  | Redirect p inner =>
      if ((0 <=? p) && (p <=? Z.of_nat (length content)))%Z then
        match
          (fix go (cs : list cmd) (pos : nat) : option (list (list C) * nat) :=
             match cs with
             | [] => Some ([], pos)
             | c :: cs' =>
                 match plain c pos with
                 | None => None
                 | Some (a, pos') =>
                     match go cs' pos' with
                     | None => None
                     | Some (b, pos'') => Some (a ++ b, pos'')
                     end
                 end
             end) inner (Z.to_nat p)
        with
        | None => None
        | Some (ls, _) => Some (ls, pos)
        end
      else None
  end.
End RSpec.
