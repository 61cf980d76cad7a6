(** Symmetries of a metric: C193. *)
From Coq Require Import QArith.
From Verif Require Import Alg Arr Spec TensorM WorldM SpecWorld CalcM SpecCalc CurvM SpecCurv SpecCov SpecDeriv SpecKilling Killing_P Inst InstExp ExWorld Witness_Volume_P Witness_Killing_P.
Local Open Scope nat_scope.

Section Killing.
Context {A : AlgOps} {L : AlgLaws A} {D : DiffLaws A}.
Variables (n : nat) (m c : oid) (name : string) (xs : list string) (g gi : nat -> nat -> K).
Notation session w := (metric_session w n m c name xs g gi).
Notation known w := (known_results n xs g gi w m c name).
Notation yields := (yields n xs g gi).

(** C193.  CovariantD("a") @ T("b") for a covector T, symmetrised, is the Lie derivative of the
    metric along the vector with the index raised. *)
Theorem C193_lie_derivative w t h X a b :
  session w -> known w -> tensor_value w n m c t [-1]%Z h -> ~ named w "TEMP" t -> lowered_vector n g X h ->
  a <> b -> two_letters_free [a; b] ->
  exists f, yields (derivative t a [b]) m c name [(name ++ " Christoffel")%string] [a; b] [-1; -1]%Z f w /\
    forall p q, p < n -> q < n -> keq (kadd (f [p; q]) (f [q; p])) (lie_metric n (cx xs) g X p q).
Proof. exact (killing_computed n m c name xs g gi w t h X a b). Qed.

(** The coordinate vector k satisfies Killing's equation if and only if no component of the
    metric changes along the coordinate k. *)
Theorem C193_coordinate_vector w t h k a b :
  session w -> known w -> tensor_value w n m c t [-1]%Z h -> ~ named w "TEMP" t ->
  k < n -> (forall q, q < n -> keq (h [q]) (g q k)) -> a <> b -> two_letters_free [a; b] ->
  exists f, yields (derivative t a [b]) m c name [(name ++ " Christoffel")%string] [a; b] [-1; -1]%Z f w /\
    forall p q, p < n -> q < n -> keq (kadd (f [p; q]) (f [q; p])) (kdiff (nth k xs ""%string) (g p q)).
Proof. exact (killing_coordinate n m c name xs g gi w t h k a b). Qed.
End Killing.
Print Assumptions C193_lie_derivative.
Print Assumptions C193_coordinate_vector.

(** dx^2 + exp(2x) (dy^2 + dz^2): the rotation y d_z - z d_y is a symmetry, d_x is not. *)
Example killing_session_met :
  metric_session sym_w 3 1 0 "g" hyp_xyz (emat hyp_g) (emat hyp_gi) /\ known_results 3 hyp_xyz (emat hyp_g) (emat hyp_gi) sym_w 1 0 "g".
Proof. exact sym_session. Qed.
Example killing_tensors_met :
  (exists h, tensor_value sym_w 3 1 0 2 [-1]%Z h /\ @lowered_vector ExpOps 3 (emat hyp_g) rot_X h) /\ ~ named sym_w "TEMP" 2 /\
  (exists h, tensor_value sym_w 3 1 0 3 [-1]%Z h /\ forall q, q < 3 -> @keq ExpOps (h [q]) (emat hyp_g q 0)) /\ ~ named sym_w "TEMP" 3.
Proof. exact sym_tensors. Qed.
Example killing_letters_met : "a"%string <> "b"%string /\ two_letters_free ["a"; "b"]%string.
Proof. exact sym_letters. Qed.
Example killing_both_cases :
  (forall p q, p < 3 -> q < 3 -> @keq ExpOps (@lie_metric ExpOps 3 (cx hyp_xyz) (emat hyp_g) rot_X p q) (@k0 ExpOps)) /\
  ~ @keq ExpOps (@kdiff ExpOps "x" (emat hyp_g 1 1)) (@k0 ExpOps).
Proof. exact sym_lie. Qed.
