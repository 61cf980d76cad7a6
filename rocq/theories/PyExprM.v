(** Model of the reading of a text by sym.sympify as /repo/src/PyOGRe/MathematicaParser/Interpreter.py
    281-286 uses it: the argument of a function is a node, which SymPy turns into its printed form
    (Nodes.py, __repr__) and reads as a Python expression, with ^ for the power (convert_xor).
    Definitions only.

    Simplifications: only names, numbers, the signs + - * / ^ and parentheses are modelled, other
    texts have no reading; the value of a name or a number is a parameter.  The grammar is that
    of the Python language reference, 6.5 - 6.7: a power binds stronger than a sign on its left and
    weaker than a sign on its right.  The methods of the parser take a fuel, of which there is
    always more than enough. *)
From Verif Require Import Base LexM ParseM InterpM.
From Coq Require Import Ascii.
Import List.

Inductive pytok : Set := PyWord (v : text) | PySign (c : ascii).

Definition py_alnum (c : ascii) : bool :=
  let n := nat_of_ascii c in
  (48 <=? n) && (n <=? 57) || (65 <=? n) && (n <=? 90) || (97 <=? n) && (n <=? 122).

(** The tokens of a text; [w] is the word that is being read. *)
Definition py_flush (w : text) : list pytok := match w with [] => [] | _ :: _ => [PyWord w] end.
Fixpoint py_lex (w l : text) : list pytok :=
  match l with
  | [] => py_flush w
  | c :: l' =>
      if py_alnum c then py_lex (w ++ [c]) l'
      else py_flush w ++ (if is_space c then [] else [PySign c]) ++ py_lex [] l'
  end.

Inductive pyexp : Set :=
| PyName (v : text)
| PyAdd (a b : pyexp) | PySub (a b : pyexp) | PyMul (a b : pyexp) | PyDiv (a b : pyexp)
| PyPow (a b : pyexp) | PyNeg (a : pyexp) | PyPos (a : pyexp).

(** The grammar of sums, products, signs, powers and atoms. *)
Fixpoint py_sum (fuel : nat) (s : list pytok) {struct fuel} : option (pyexp * list pytok) :=
  match fuel with
  | O => None
  | S fuel => match py_term fuel s with Some (a, s) => py_sum_loop fuel a s | None => None end
  end
with py_sum_loop (fuel : nat) (a : pyexp) (s : list pytok) {struct fuel} : option (pyexp * list pytok) :=
  match fuel with
  | O => None
  | S fuel =>
      match s with
      | PySign "+" :: s => match py_term fuel s with Some (b, s) => py_sum_loop fuel (PyAdd a b) s | None => None end
      | PySign "-" :: s => match py_term fuel s with Some (b, s) => py_sum_loop fuel (PySub a b) s | None => None end
      | _ => Some (a, s)
      end
  end
with py_term (fuel : nat) (s : list pytok) {struct fuel} : option (pyexp * list pytok) :=
  match fuel with
  | O => None
  | S fuel => match py_factor fuel s with Some (a, s) => py_term_loop fuel a s | None => None end
  end
with py_term_loop (fuel : nat) (a : pyexp) (s : list pytok) {struct fuel} : option (pyexp * list pytok) :=
  match fuel with
  | O => None
  | S fuel =>
      match s with
      | PySign "*" :: s => match py_factor fuel s with Some (b, s) => py_term_loop fuel (PyMul a b) s | None => None end
      | PySign "/" :: s => match py_factor fuel s with Some (b, s) => py_term_loop fuel (PyDiv a b) s | None => None end
      | _ => Some (a, s)
      end
  end
with py_factor (fuel : nat) (s : list pytok) {struct fuel} : option (pyexp * list pytok) :=
  match fuel with
  | O => None
  | S fuel =>
      match s with
      | PySign "-" :: s => match py_factor fuel s with Some (a, s) => Some (PyNeg a, s) | None => None end
      | PySign "+" :: s => match py_factor fuel s with Some (a, s) => Some (PyPos a, s) | None => None end
      | _ => py_power fuel s
      end
  end
with py_power (fuel : nat) (s : list pytok) {struct fuel} : option (pyexp * list pytok) :=
  match fuel with
  | O => None
  | S fuel =>
      match py_atom fuel s with
      | Some (a, PySign "^" :: s) => match py_factor fuel s with Some (b, s) => Some (PyPow a b, s) | None => None end
      | r => r
      end
  end
with py_atom (fuel : nat) (s : list pytok) {struct fuel} : option (pyexp * list pytok) :=
  match fuel with
  | O => None
  | S fuel =>
      match s with
      | PyWord v :: s => Some (PyName v, s)
      | PySign "(" :: s => match py_sum fuel s with Some (a, PySign ")" :: s) => Some (a, s) | _ => None end
      | _ => None
      end
  end.

Definition py_parse (l : text) : option pyexp :=
  let s := py_lex [] l in
  match py_sum (7 * List.length s + 7) s with Some (a, []) => Some a | _ => None end.

(** eval of the expression: the operators of the SymPy classes.  A difference is the sum with the
    negative, a quotient the product with the power -1, as in Interpreter.py 176-199. *)
Section Eval.
Context {O : PyOps}.
Variable word_value : text -> res E.
Fixpoint py_eval (a : pyexp) : res E :=
  match a with
  | PyName v => word_value v
  | PyAdd a b => do x <- py_eval a; do y <- py_eval b; o_add x y
  | PySub a b => do x <- py_eval a; do y <- py_eval b; do z <- o_neg y; o_add x z
  | PyMul a b => do x <- py_eval a; do y <- py_eval b; o_mul x y
  | PyDiv a b => do x <- py_eval a; do y <- py_eval b; do z <- o_pow y o_minus_one; o_mul x z
  | PyPow a b => do x <- py_eval a; do y <- py_eval b; o_pow x y
  | PyNeg a => do x <- py_eval a; o_neg x
  | PyPos a => py_eval a
  end.
End Eval.
