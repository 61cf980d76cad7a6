(** Properties of the report of delete_results.  Theorems only; proofs in Report_P.v. *)
From Verif Require Import Base LexM Arr Inst WorldM SpecWorld SpecMessage ReportM SpecReport Report_P ExWorld Witness_World_P.
Import List.
Local Open Scope nat_scope.

(** C216: the number that delete_results reports is the number of objects it has taken out of the
    registry. *)
Theorem C216_number_reported : forall {A : AlgOps} w silent, registry_ok w ->
  exists k w', report_results silent w = (Ok (if silent then None else Some (reported k)), w') /\ delete_results silent w = (Ok tt, w') /\
    length (insts w) = k + length (insts w').
Proof. exact (@report_number). Qed.
Print Assumptions C216_number_reported.

(** Of a block of results that nothing uses all but one in 16 are reported. *)
Theorem C216_block_reported : forall {A : AlgOps} w pre block post, registry_ok w -> insts w = pre ++ block ++ post ->
  Forall (named w "Result") block -> Forall (fun i => ~ named w "Result" i) pre -> Forall (fun i => ~ named w "Result" i) post ->
  Forall (fun i => ~ used w i) block ->
  exists w', report_results false w = (Ok (Some (reported (length block - length block / 16))), w').
Proof. exact (@report_block). Qed.
Print Assumptions C216_block_reported.

(** Different numbers give different texts. *)
Theorem C216_texts_differ : forall k k', reported k = reported k' -> k = k'.
Proof. exact reported_inj. Qed.
Print Assumptions C216_texts_differ.

Example C216_hypotheses_met :
  registry_ok ex_results_w /\ insts ex_results_w = [0; 1; 2; 3] ++ seq 4 17 ++ [21] /\
  Forall (named ex_results_w "Result") (seq 4 17) /\
  Forall (fun i => ~ named ex_results_w "Result" i) [0; 1; 2; 3] /\ Forall (fun i => ~ named ex_results_w "Result" i) [21] /\
  Forall (fun i => ~ used ex_results_w i) (seq 4 17).
Proof. exact ex_results_hyps. Qed.
Example C216_text : string_of_list_ascii (reported (17 - 17 / 16)) = "Deleted 16 tensor(s) named 'Result'."%string.
Proof. reflexivity. Qed.
