(** The index letters in force (Options.py 28-30 and 128-208) in products with a covariant
    derivative: Calc.py 664-668 and 773-777; and the curve parameter in force (Options.py 31 and
    211-267) in the geodesic equations from the Lagrangian: Calc.py 1486.  Definitions only.
    Simplification: the letters are those that OptionsM.v gives; that str() of a letter is read
    back as this letter by sympy.symbols (Calc.py 693, 711, 746 and Tensor.py 98) holds for
    names without white space, commas, colons and backslashes. *)
From Coq Require Import Ascii.
From Verif Require Import Base LexM InterpM OptionsM CalcM GeodM.

Section LettersM.
Context {A : AlgOps}.

(** [for symbol in options.ALL_SYMBOLS]: one symbol alone cannot be iterated over. *)
Definition index_letters (o : options) : res (list string) :=
  match opt_letters o with
  | Tuple l => Ok (map string_of_list_ascii l)
  | One _ => Err ETypeError
  end.

(** self @ other under the options [o]. *)
Definition matmul_in (o : options) (self other : calc) : M calc := matmul_with (index_letters o) self other.

(** metric.calc_geodesic_from_lagrangian(coords) under the options [o]. *)
Definition calc_geodesic_lagrangian_in (o : options) (m : oid) (coords : option oid) : M oid :=
  calc_geodesic_lagrangian_with (string_of_list_ascii (opt_parameter o)) m coords.
End LettersM.
