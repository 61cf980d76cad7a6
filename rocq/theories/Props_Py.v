(** The arguments of functions in Mathematica text: C204. *)
From Verif Require Import Base LexM ParseM InterpM SpecParse PyExprM SpecPy PyExpr_P Witness_Py_P.
From Coq Require Import Ascii.
Import List.

(** C204.  The property is false: Sin[(-x)^2] is read as Sin[-(x^2)]. *)
Theorem C204_arguments_keep_their_value_refuted :
  forall O : PyOps, reads_python O ->
  exists s, s = chars "Sin[(-x)^2]" /\
  settles (fun n => parse_str n s)
    (do e <- meaning (ENeg (EPow (EWord (chars "x")) (EWord (chars "2")))); do r <- o_apply (chars "Sin") [e]; Ok (VE r)).
Proof. exact negative_base_witness. Qed.
Print Assumptions C204_arguments_keep_their_value_refuted.

(** An algebra with the hypothesis of the theorem, in which the two are different. *)
Theorem C204_values_differ_refuted :
  exists O : PyOps, reads_python O /\
  @meaning O (ENeg (EPow (EWord (chars "x")) (EWord (chars "2")))) <>
  @meaning O (EPow (EParen (ENeg (EWord (chars "x")))) (EWord (chars "2"))).
Proof. exact negative_base_other. Qed.
Print Assumptions C204_values_differ_refuted.

(** It holds for arguments in which no negative is the base of a power. *)
Theorem C204_arguments_value :
  forall O : PyOps, reads_python O -> forall (sp : bool) (f : text) (a : exp) (l : list exp),
  words_ok (ECall f a l) -> f <> chars "Derivative" ->
  (forall x, In x (a :: l) -> arithmetic x /\ no_negative_base x) ->
  settles (fun n => parse_str n (show sp 1 (ECall f a l)))
    (do es <- each meaning (a :: l); do e <- o_apply f es; Ok (VE e)).
Proof. exact (@call_value_right). Qed.
Print Assumptions C204_arguments_value.

(** Extent of the fault: the sign of a negative base is put before the power, and nothing else changes. *)
Theorem C204_arguments_as_read :
  forall O : PyOps, reads_python O -> forall (sp : bool) (f : text) (a : exp) (l : list exp),
  words_ok (ECall f a l) -> f <> chars "Derivative" ->
  (forall x, In x (a :: l) -> arithmetic x) ->
  settles (fun n => parse_str n (show sp 1 (ECall f a l)))
    (do es <- each (fun x => meaning (sign_outside x)) (a :: l); do e <- o_apply f es; Ok (VE e)).
Proof. exact (@call_value). Qed.
Print Assumptions C204_arguments_as_read.

Example C204_hypothesis : reads_python PythonOps.
Proof. exact python_reads. Qed.
Example C204_case :
  let a := EAdd (EWord (chars "x")) (EPow (EParen (ESub (EWord (chars "y")) (EWord (chars "1")))) (ENeg (EWord (chars "2")))) in
  let e := ECall (chars "f") a [EDiv (EWord (chars "t")) (EBy (EWord (chars "2")) (EParen (ENeg (EWord (chars "x")))))] in
  words_ok e /\ arithmetic a /\ no_negative_base a
  /\ show true 1 e = chars "f[x + (y - 1)^-2, t/(2 (-x))]".
Proof. repeat split; try discriminate; vm_compute; reflexivity. Qed.
