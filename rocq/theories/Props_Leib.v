(** The covariant derivative of the result of a formula: C194. *)
From Verif Require Import Alg Arr Spec TensorM WorldM SpecWorld CalcM SpecCalc CurvM SpecCurv SpecCov LeibRun_P Inst Ex ExWorld ExForm Witness_Leib_P.
From Verif Require Import SpecHead SpecLeib SpecForm.
Local Open Scope nat_scope.

Section Leib.
Context {A : AlgOps} {L : AlgLaws A} {D : DiffLaws A}.
Variables (n : nat) (m c : oid) (name : string) (xs : list string) (g gi : nat -> nat -> K).
(** [conf t] and [T t] are the configuration and the covariant components of the tensor [t]. *)
Variables (conf : oid -> list Z) (T : oid -> list nat -> K).
Notation session w := (metric_session w n m c name xs g gi).
Notation known w := (known_results n xs g gi w m c name).
Notation raised t := (act n (map (conv g gi (-1)%Z) (conf t)) (T t)).

(** C194.  CovariantD("a") @ Calc(formula, "nm")("...") has the components given by the rules for
    sums, products and contractions, for every formula without derivatives. *)
Theorem C194_derivative_of_a_formula letters p nm a w :
  session w -> known w -> well_formed conf p -> algebraic p ->
  (forall t, In t (leaves p) -> operand w n m c g gi t (conf t) (raised t)) ->
  nm <> "TEMP"%string -> ~ In nm (curvature_names name) ->
  ~ In a (free_syms p) -> free_letters letters (a :: free_syms p) ->
  exists z w' b,
    (let! x := eval p in let! t := run_calc x nm "" [] in derivative_of letters a t (free_syms p)) w = (Ok z, w') /\
    result_is w' z (a :: free_syms p) m c (-1 :: free_cfg conf p)%Z b /\
    holds n (S (length (free_cfg conf p))) b (nabla_components conf n xs g gi T p (free_syms p) (free_cfg conf p)) /\
    session w' /\ known w' /\
    only_adds_and_grows (leaves p) ["TEMP"; nm; (name ++ " Christoffel")]%string w w'.
Proof. exact (formula_derivative n m c name xs g gi conf T letters p nm a w). Qed.
End Leib.
Print Assumptions C194_derivative_of_a_formula.

(** CovariantD("c") @ Calc(2 * S("b a") @ V("a") - V("b") / 2, "W")("b") *)
Example leib_hypotheses_met :
  metric_session ex_form_w 3 2 0 "g" (g_syms ex_geo3 0) (g_G ex_geo3 0) (g_Gi ex_geo3 0) /\
  known_results 3 (g_syms ex_geo3 0) (g_G ex_geo3 0) (g_Gi ex_geo3 0) ex_form_w 2 0 "g" /\
  well_formed ex_conf leib_formula /\ algebraic leib_formula /\
  (forall t, In t (leaves leib_formula) ->
     operand ex_form_w 3 2 0 (g_G ex_geo3 0) (g_Gi ex_geo3 0) t (ex_conf t)
       (act 3 (map (conv (g_G ex_geo3 0) (g_Gi ex_geo3 0) (-1)%Z) (ex_conf t)) (ex_cov t 0))) /\
  "W"%string <> "TEMP"%string /\ ~ In "W"%string (curvature_names "g") /\
  free_syms leib_formula = ["b"%string] /\ ~ In "c"%string (free_syms leib_formula) /\ free_letters all_symbols ["c"; "b"]%string /\
  ~ keq (nabla_value ex_conf 3 (g_syms ex_geo3 0) (g_G ex_geo3 0) (g_Gi ex_geo3 0) (fun t => ex_cov t 0) leib_formula 1 (fun _ => 0)) k0.
Proof. exact leib_all. Qed.
