(** What Coordinates.show and Coordinates.list display, and the call of coordinates in a formula.
    Definitions only.  Simplifications: the text around labels and components (the name as a
    heading, the size of the font) is left out; sympy.latex of a symbol is the oracle of
    OptionsM.v; that of the column is left to sympy. *)
From Coq Require Import Ascii String.
From Verif Require Import LexM InterpM OptionsM.
From Verif Require Export ShowM.
Import List.

Section CoordShowM.
Context {A : AlgOps} {N : NameOps}.

(** Coordinates.py 347-374: the label and the column of coordinates, with the options [op]. *)
Definition coordinates_show (op : options) (t : oid) : M (text * arr) :=
  let! o := getobj t in
  let! l := mlift (eq_symbol op (chars (o_symbol o)) (o_rank o) (o_indices o)) in
  let! b := as_column (mkArr [length (o_syms o)] (map ksym (o_syms o))) in
  mret (l, b).

(** Coordinates.py 376-403: one line for each coordinate, both sides as they are displayed. *)
Definition coordinates_list (op : options) (t : oid) : M (list (text * text)) :=
  let! o := getobj t in
  mret (map (fun x => (shown op (chars (o_symbol o) ++ chars "^" ++ chars x), shown op (chars x))) (o_syms o)).

(** Coordinates.py 88-97 *)
Definition coordinates_call (t : oid) (indices : list string) : M unit := mraise ENotImplemented.

End CoordShowM.
