(** Python runtime notions shared by all model files: exceptions as values,
    insertion-ordered dictionaries, itertools.product, and small list helpers.
    Definitions only. *)
From Coq Require Export String Arith ZArith Bool List Lia.
Export ListNotations.

(** The exceptions the modelled code can raise.  The last four classes are those of
    /repo/src/PyOGRe/Exceptions.py; [EException] is the bare [Exception] raised by the
    parser, [ESymPy] an error raised inside SymPy (for example a singular matrix),
    [EFuel] is not a Python exception: it marks an exhausted fuel bound. *)
Inductive exn : Set :=
| ETypeError | EValueError | EIndexError | EKeyError | EAttributeError
| EPermissionError | EZeroDivision | ENotImplemented | EException | ESymPy
| EIndicesValue | EIndicesDimension | ETensorDimension | ETensorCoordinates
| ETransformation
| EFuel.

Inductive res (A : Type) : Type :=
| Ok (a : A)
| Err (e : exn).
Arguments Ok {A} a.
Arguments Err {A} e.

Definition rbind {A B : Type} (r : res A) (f : A -> res B) : res B :=
  match r with Ok a => f a | Err e => Err e end.

Notation "'do' x <- r ; k" := (rbind r (fun x => k))
  (at level 200, x pattern, r at level 100, k at level 200).

(** [for x in l: acc = f(acc, x)] where the body may raise. *)
Fixpoint rfold {A B : Type} (f : A -> B -> res A) (l : list B) (a : A) : res A :=
  match l with
  | [] => Ok a
  | x :: l' => do a' <- f a x; rfold f l' a'
  end.

(** itertools.product(range(n), repeat=k), in the order Python produces it. *)
Fixpoint tuples (n k : nat) : list (list nat) :=
  match k with
  | O => [[]]
  | S k' => flat_map (fun i => map (cons i) (tuples n k')) (seq 0 n)
  end.

(** l[i] = x on a Python list (in range; out of range leaves the list unchanged and the
    callers check the range where Python would raise). *)
Fixpoint set_nth {A : Type} (i : nat) (x : A) (l : list A) : list A :=
  match l, i with
  | [], _ => []
  | _ :: l', O => x :: l'
  | y :: l', S i' => y :: set_nth i' x l'
  end.

(** list.remove at a position. *)
Fixpoint del_nth {A : Type} (i : nat) (l : list A) : list A :=
  match l, i with
  | [], _ => []
  | _ :: l', O => l'
  | y :: l', S i' => y :: del_nth i' l'
  end.

(** list.insert(i, x). *)
Fixpoint ins_nth {A : Type} (i : nat) (x : A) (l : list A) : list A :=
  match i, l with
  | O, _ => x :: l
  | S i', [] => [x]
  | S i', y :: l' => y :: ins_nth i' x l'
  end.

(** list.index: position of the first occurrence. *)
Fixpoint index_of {A : Type} (eqb : A -> A -> bool) (x : A) (l : list A) : option nat :=
  match l with
  | [] => None
  | y :: l' => if eqb x y then Some 0
               else match index_of eqb x l' with Some i => Some (S i) | None => None end
  end.

(** Position of the first element satisfying a test. *)
Fixpoint find_index {A : Type} (p : A -> bool) (l : list A) : option nat :=
  match l with
  | [] => None
  | y :: l' => if p y then Some 0
               else match find_index p l' with Some i => Some (S i) | None => None end
  end.

Definition count {A : Type} (eqb : A -> A -> bool) (x : A) (l : list A) : nat :=
  length (filter (eqb x) l).

(** Insertion-ordered dictionaries (Python >= 3.7). *)
Section Dict.
  Context {K V : Type} (eqb : K -> K -> bool).
  Fixpoint dget (k : K) (d : list (K * V)) : option V :=
    match d with
    | [] => None
    | (k', v) :: d' => if eqb k k' then Some v else dget k d'
    end.
  (** d[k] = v keeps the position of an existing key and appends a new one. *)
  Fixpoint dset (k : K) (v : V) (d : list (K * V)) : list (K * V) :=
    match d with
    | [] => [(k, v)]
    | (k', v') :: d' => if eqb k k' then (k', v) :: d' else (k', v') :: dset k v d'
    end.
  (** del d[k] *)
  Fixpoint ddel (k : K) (d : list (K * V)) : list (K * V) :=
    match d with
    | [] => []
    | (k', v') :: d' => if eqb k k' then d' else (k', v') :: ddel k d'
    end.
  Definition dmem (k : K) (d : list (K * V)) : bool :=
    match dget k d with Some _ => true | None => false end.
End Dict.

(** Equality of index configurations (tuples of integers). *)
Fixpoint cfg_eqb (a b : list Z) : bool :=
  match a, b with
  | [], [] => true
  | x :: a', y :: b' => (x =? y)%Z && cfg_eqb a' b'
  | _, _ => false
  end.

Definition is_ok {A : Type} (r : res A) : bool := match r with Ok _ => true | Err _ => false end.
Definition is_err {A : Type} (e : exn) (r : res A) : bool :=
  match r with
  | Err e' => match e, e' with
              | ETypeError, ETypeError | EValueError, EValueError | EIndexError, EIndexError
              | EKeyError, EKeyError | EAttributeError, EAttributeError
              | EPermissionError, EPermissionError | EZeroDivision, EZeroDivision
              | ENotImplemented, ENotImplemented | EException, EException | ESymPy, ESymPy
              | EIndicesValue, EIndicesValue | EIndicesDimension, EIndicesDimension
              | ETensorDimension, ETensorDimension | ETensorCoordinates, ETensorCoordinates
              | ETransformation, ETransformation | EFuel, EFuel => true
              | _, _ => false
              end
  | Ok _ => false
  end.
