(** The line element and the volume element of a metric (Metric.py 183-311).  Definitions only. *)
From Verif Require Import Alg Arr TensorM WorldM.
Local Open Scope nat_scope.

Section LineM.
Context {A : AlgOps}.

(** sym.Matrix(m).det() for an n x n matrix with the entries f: expansion by the first row.
    SymPy's algorithm is another one; the result is the same up to mathematical equality. *)
Fixpoint laplace (n : nat) (f : nat -> nat -> K) : K :=
  match n with
  | O => k1
  | S n' =>
    lsum (seq 0 n) (fun j =>
      kmul (if Nat.even j then f 0 j else kopp (f 0 j))
           (laplace n' (fun r c => f (S r) (if c <? j then c else S c))))
  end.

(** Metric.py 196-209 and 277-293: the coordinates used, and the covariant components in them.
    None stands for the default argument; an argument that is no Coordinates object is a
    TypeError. *)
Definition display_components (m : oid) (coords : option oid) : M (oid * arr) :=
  let! ok := match coords with Some c => isinstance c CCoordinates | None => mret true end in
  if negb ok then mraise ETypeError else
  let! o := getobj m in
  let! c := match coords with Some c => mret c | None => mopt EAttributeError (o_coords o) end in
  let! b := metric_check m c in
  (if b then mret tt else metric_transform m c [-1; -1]%Z) ;;
  let! a := lookup m c [-1; -1]%Z in
  mret (c, a).

(** Metric.py 183-262, the branch without LaTeX: the two sides of the equation that is printed.
    The sums over i and j (254-256) are in the order of the loops.  infinitesimals[i] is an
    IndexError when there are fewer symbols than rows. *)
Definition line_element (m : oid) (coords : option oid) : M (K * K) :=
  let! (c, a) := display_components m coords in
  let! co := getobj c in
  let d := map (fun s => ksym ("d" ++ s)%string) (o_syms co) in
  let rows := nth 0 (shape a) 0 in
  let cols := nth 1 (shape a) 0 in
  if (length d <? rows) || (length d <? cols) then mraise EIndexError else
  mret (kmul (ksym "ds") (ksym "ds"),
        fold_left (fun acc ij =>
          kadd acc (kmul (kmul (aget a [fst ij; snd ij]) (nth (fst ij) d k0)) (nth (snd ij) d k0)))
          (list_prod (seq 0 rows) (seq 0 cols)) k0).

(** Metric.py 264-311: the volume element squared that is printed. *)
Definition volume_element (m : oid) (coords : option oid) : M K :=
  let! (_, a) := display_components m coords in
  mret (simp (laplace (nth 0 (shape a) 0) (fun i j => aget a [i; j]))).

End LineM.
