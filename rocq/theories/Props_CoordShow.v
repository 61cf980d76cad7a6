(** Show and list of coordinate systems: C191. *)
From Coq Require Import Ascii String.
From Verif Require Import Alg Arr Spec TensorM WorldM SpecWorld LexM InterpM OptionsM SpecOptions ShowM SpecShow CoordShowM CoordShow_P Inst ExWorld Witness_Options_P Witness_CoordShow_P.
Import List.
Local Open Scope nat_scope.

Section CoordShow.
Context {A : AlgOps} {N : NameOps}.

(** C191.  show displays the label and the coordinates as a column; it needs one index letter. *)
Theorem C191_show op l t o w : obj_of w t = Some o -> opt_letters op = Tuple l ->
  o_rank o = 1 -> o_indices o = [1]%Z \/ o_indices o = [-1]%Z ->
  (1 <= length l -> exists a b, awf a /\ shape a = [length (o_syms o)] /\
     (forall i, i < length (o_syms o) -> aget a [i] = ksym (nth i (o_syms o) ""%string)) /\ shown_as a b /\
     coordinates_show op t w = (Ok (label_text (opt_latex op) (chars (o_symbol o)) l (o_indices o), b), w)) /\
  (l = [] -> coordinates_show op t w = (Err EIndexError, w)).
Proof. exact (coordinates_shown op l t o w). Qed.
Theorem C191_show_with_one_letter op x t o w : obj_of w t = Some o -> opt_letters op = One x ->
  coordinates_show op t w = (Err ETypeError, w).
Proof. exact (coordinates_one_letter op x t o w). Qed.

(** list displays every coordinate once, in order, whatever the index letters; different
    coordinates have different labels, and no label is the coordinate itself, so that no equation
    is displayed as True. *)
Theorem C191_list op t o w : obj_of w t = Some o ->
  exists l, coordinates_list op t w = (Ok l, w) /\ length l = length (o_syms o) /\
    (forall i, i < length (o_syms o) ->
       nth_error l i = Some (shown op (chars (o_symbol o ++ "^" ++ nth i (o_syms o) "")%string), shown op (chars (nth i (o_syms o) ""%string)))) /\
    (opt_latex op = false -> (NoDup (o_syms o) -> NoDup (map fst l)) /\ forall e, In e l -> fst e <> snd e).
Proof. exact (coordinates_listed op t o w). Qed.
Theorem C191_coordinates_in_a_formula t i w : coordinates_call t i w = (Err ENotImplemented, w).
Proof. exact (coordinates_called t i w). Qed.
End CoordShow.
Print Assumptions C191_show.
Print Assumptions C191_show_with_one_letter.
Print Assumptions C191_list.
Print Assumptions C191_coordinates_in_a_formula.

(** The coordinates x, y of the session of ExWorld.v, with LaTeX and with plain text. *)
Example coordinates_met : exists o, obj_of ex_w 0 = Some o /\ o_rank o = 1 /\ o_indices o = [1]%Z /\ o_syms o = ["x"; "y"]%string /\ NoDup (o_syms o).
Proof. exact ex_coordinates. Qed.
Example coordinates_options_met : opt_letters ex_options = Tuple [chars "a"; chars "b"] /\ opt_latex ex_options = true /\
  opt_letters ex_plain = Tuple [chars "a"; chars "b"] /\ opt_latex ex_plain = false.
Proof. exact (conj eq_refl (conj eq_refl (conj eq_refl eq_refl))). Qed.
Example coordinates_displayed : exists b,
  coordinates_show ex_plain 0 ex_w = (Ok (chars "x^a", b), ex_w) /\
  coordinates_list ex_plain 0 ex_w = (Ok [(chars "x^x", chars "x"); (chars "x^y", chars "y")], ex_w).
Proof. exact ex_displayed. Qed.
