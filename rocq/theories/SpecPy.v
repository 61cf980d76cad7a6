(** Specification vocabulary for the arguments of functions.  Definitions only. *)
From Verif Require Export Base LexM ParseM InterpM SpecParse PyExprM.
Import List.

(** Expressions without calls and without Greek letters. *)
Fixpoint arithmetic (e : exp) : Prop :=
  match e with
  | EWord _ => True
  | EAdd a b | ESub a b | EMul a b | EDiv a b | EPow a b | EBy a b | EPowS a b => arithmetic a /\ arithmetic b
  | ENeg a | EParen a => arithmetic a
  | ECall _ _ _ | EGreek _ => False
  end.

(** A negative, possibly between parentheses. *)
Fixpoint negative (e : exp) : bool :=
  match e with ENeg _ => true | EParen a => negative a | _ => false end.

(** The power of a negative taken for the negative of the power, everywhere in an expression. *)
Definition power_of (n : bool) (a b : exp) : exp :=
  match n, a with true, ENeg c => ENeg (EPow c b) | _, _ => EPow a b end.
Fixpoint sign_outside (e : exp) : exp :=
  match e with
  | EAdd a b => EAdd (sign_outside a) (sign_outside b)
  | ESub a b => ESub (sign_outside a) (sign_outside b)
  | EMul a b | EBy a b => EMul (sign_outside a) (sign_outside b)
  | EDiv a b => EDiv (sign_outside a) (sign_outside b)
  | EPow a b | EPowS a b => power_of (negative a) (sign_outside a) (sign_outside b)
  | ENeg a => ENeg (sign_outside a)
  | EParen a => sign_outside a
  | _ => e
  end.

(** No negative is the base of a power. *)
Fixpoint no_negative_base (e : exp) : Prop :=
  match e with
  | EAdd a b | ESub a b | EMul a b | EDiv a b | EBy a b => no_negative_base a /\ no_negative_base b
  | EPow a b | EPowS a b => negative a = false /\ no_negative_base a /\ no_negative_base b
  | ENeg a | EParen a => no_negative_base a
  | _ => True
  end.

(** sympify reads the texts of Python expressions as Python does, with some value for every
    name and number. *)
Definition reads_python (O : PyOps) : Prop :=
  exists word_value, forall t a, py_parse t = Some a -> o_sympify t = py_eval word_value a.
