(** C108, C109: the norm squared of a tensor. *)
From Verif Require Import Alg Arr Spec TensorM WorldM SpecWorld CalcM SpecCalc CurvM SpecCurv Norm_P Norm2_P Inst Ex ExWorld Witness_Curv_P Witness_Norm_P.
Local Open Scope nat_scope.

Section Norm.
Context {A : AlgOps} {L : AlgLaws A} {D : DiffLaws A}.
Variables (n : nat) (m c : oid) (name : string) (xs : list string) (g gi : nat -> nat -> K).
Notation session w := (metric_session w n m c name xs g gi).
Notation value w := (tensor_value w n m c).

(** C108 *)
Theorem C108_norm_value w t i h tn : session w -> named w tn t -> tn <> "TEMP"%string -> value w t i h ->
  stored_right w n c t g gi i h -> (cls_of w t = Some CMetric -> t = m) ->
  let nm := (tn ++ " Norm Squared")%string in
  let N := fun _ : list nat => norm_of n g gi i h in
  known w n m c nm [] N ->
  exists q w', calc_norm_squared t w = (Ok q, w') /\ In q (insts w') /\ named w' nm q /\ value w' q [] N /\
    only_adds_to t ["TEMP"%string; nm] w w' /\ session w' /\
    value w' t i h /\ stored_right w' n c t g gi i h /\ known w' n m c nm [] N.
Proof. exact (norm_run n m c name xs g gi w t i h tn). Qed.

Theorem C108_norm_configuration (Hs : symmetric_fun n g) (Hi : inverse_fun n g gi) i j h :
  valid_cfg i -> valid_cfg j -> length j = length i ->
  keq (norm_of n g gi j (converted n g gi i j h)) (norm_of n g gi i h).
Proof. exact (norm_config n g gi Hs Hi i j h). Qed.

Theorem C108_norm_vector z h : (z = 1 \/ z = -1)%Z ->
  keq (norm_of n g gi [z] h)
      (nsum n (fun i => nsum n (fun j => kmul (if (z =? 1)%Z then g i j else gi i j) (kmul (h [i]) (h [j]))))).
Proof. exact (norm_vector n g gi z h). Qed.

Theorem C108_norm_scalar h : keq (norm_of n g gi [] h) (kmul (h []) (h [])).
Proof. exact (norm_scalar n g gi h). Qed.

Theorem C108_norm_metric (Hs : symmetric_fun n g) (Hi : inverse_fun n g gi) :
  keq (norm_of n g gi [-1; -1]%Z (at2 g)) (knat n).
Proof. exact (norm_metric n g gi Hs Hi). Qed.
End Norm.
Print Assumptions C108_norm_value.
Print Assumptions C108_norm_configuration.
Print Assumptions C108_norm_vector.
Print Assumptions C108_norm_scalar.
Print Assumptions C108_norm_metric.

(** In a session with a metric that is not constant, a tensor of rank 2 and the metric itself meet
    the hypotheses. *)
Example norm_hypotheses_met :
  metric_session ex_calc_w 2 2 0 "g" ex_xs (mat2 ex_g) (mat2 ex_gi) /\
  (named ex_calc_w "C" 8 /\ cls_of ex_calc_w 8 = Some CTensor /\ tensor_value ex_calc_w 2 2 0 8 [1; -1]%Z (aget ex_mat) /\
   stored_right ex_calc_w 2 0 8 (mat2 ex_g) (mat2 ex_gi) [1; -1]%Z (aget ex_mat) /\
   forall j, In j (insts ex_calc_w) -> ~ named ex_calc_w "C Norm Squared" j) /\
  (named ex_calc_w "g" 2 /\ tensor_value ex_calc_w 2 2 0 2 [-1; -1]%Z (at2 (mat2 ex_g)) /\
   stored_right ex_calc_w 2 0 2 (mat2 ex_g) (mat2 ex_gi) [-1; -1]%Z (at2 (mat2 ex_g)) /\
   forall j, In j (insts ex_calc_w) -> ~ named ex_calc_w "g Norm Squared" j).
Proof. exact ex_norm_hyps. Qed.

(** C109.  The property is false: the result is found by the name of the tensor. *)
Theorem C109_shared_norm_refuted :
  exists (w : @world PolyOps) t1 t2 q w1 w1' q' w2 r w3 r' w4,
  reachable w /\ t1 <> t2 /\ calc_norm_squared t1 w = (Ok q, w1) /\ calc_norm_squared t2 w1 = (Ok q, w1') /\
  calc_norm_squared t2 w = (Ok q', w2) /\
  get_components q None None w1' = (Ok r, w3) /\ get_components q' None None w2 = (Ok r', w4) /\
  ~ keq (aget r []) (aget r' []).
Proof. exact shared_norm_witness. Qed.
Print Assumptions C109_shared_norm_refuted.
