(** An algebra of texts in which sympify reads Python expressions. *)
From Verif Require Import Base LexM ParseM InterpM SpecParse PyExprM SpecPy Witness_Parse_P PyExpr_P.
From Coq Require Import Ascii.
Import List.

Definition PythonOps : PyOps := {|
  E := text;
  o_sympify t := match py_parse t with Some a => @py_eval TextOps (fun v => Ok v) a | None => Err EValueError end;
  o_add := txt2 "+";
  o_mul := txt2 "*";
  o_pow := txt2 "^";
  o_neg a := Ok (chars "-" ++ a);
  o_eq := txt2 "=";
  o_minus_one := chars "-1";
  o_symbol t := t;
  o_apply f l := Ok (f ++ chars "(" ++ concat l ++ chars ")");
  o_function f l := Ok (f ++ chars "(" ++ concat l ++ chars ")");
  o_diff f l := Ok (chars "d" ++ f ++ chars "/" ++ concat l);
  o_index t := match t with [c] => if digit c then Ok (nat_of_ascii c - 48) else Err ETypeError | _ => Err ETypeError end;
  o_literal _ := Err EValueError;
  o_same := text_eqb
|}.
Lemma python_reads : reads_python PythonOps.
Proof.
  exists (fun v => Ok v). intros t a H. cbn [o_sympify PythonOps]. rewrite H. clear H. induction a; cbn [py_eval]; try reflexivity; rewrite <- ?IHa1, <- ?IHa2, <- ?IHa; reflexivity.
Qed.

Definition neg_square : exp := EPow (EParen (ENeg (EWord (chars "x")))) (EWord (chars "2")).
Lemma negative_base_witness (O : PyOps) : reads_python O ->
  exists s, s = chars "Sin[(-x)^2]" /\
  settles (fun n => parse_str n s)
    (do e <- meaning (ENeg (EPow (EWord (chars "x")) (EWord (chars "2")))); do r <- o_apply (chars "Sin") [e]; Ok (VE r)).
Proof.
  intros R. exists (chars "Sin[(-x)^2]"). split; [reflexivity|].
  assert (V := call_value R false (chars "Sin") neg_square []).
  cbn [each] in V. change (sign_outside neg_square) with (ENeg (EPow (EWord (chars "x")) (EWord (chars "2")))) in V.
  change (show false 1 (ECall (chars "Sin") neg_square [])) with (chars "Sin[(-x)^2]") in V.
  destruct (meaning (ENeg (EPow (EWord (chars "x")) (EWord (chars "2"))))); apply V.
  all: try (repeat split; try discriminate; reflexivity). all: try discriminate. all: intros x [<-|[]]; cbn; tauto.
Qed.
Lemma negative_base_differs :
  @meaning PythonOps (ENeg (EPow (EWord (chars "x")) (EWord (chars "2")))) = Ok (chars "-(x^2)") /\
  @meaning PythonOps neg_square = Ok (chars "(-x^2)").
Proof. split; vm_compute; reflexivity. Qed.
Lemma negative_base_other : exists O : PyOps, reads_python O /\
  @meaning O (ENeg (EPow (EWord (chars "x")) (EWord (chars "2")))) <>
  @meaning O (EPow (EParen (ENeg (EWord (chars "x")))) (EWord (chars "2"))).
Proof.
  exists PythonOps. split; [exact python_reads|]. destruct negative_base_differs as [H1 H2]. unfold neg_square in H2. rewrite H1, H2. discriminate.
Qed.
