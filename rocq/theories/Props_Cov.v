(** Properties of covariant derivatives: C100 - C106. *)
From Verif Require Import Alg Arr Spec TensorM WorldM SpecWorld CalcM SpecCalc CurvM SpecCurv SpecCov Cov4_P Inst Ex ExWorld Witness_Curv_P Witness_Cov_P.
Local Open Scope nat_scope.

Section Cov.
Context {A : AlgOps} {L : AlgLaws A} {D : DiffLaws A}.
Variables (n : nat) (m c : oid) (name : string) (xs : list string) (g gi : nat -> nat -> K).
Notation session w := (metric_session w n m c name xs g gi).
Notation known w := (known_results n xs g gi w m c name).
Notation Gam := (Gam n xs g gi).
Notation Rie := (Rie n xs g gi).
Notation yields := (yields n xs g gi).

(** C100.  CovariantD("a") @ T(...) without a repeated symbol, for tensors of every rank. *)
Theorem C100_gradient_value w t i h syms a :
  session w -> known w -> tensor_value w n m c t i h -> ~ named w "TEMP" t -> valid_cfg i ->
  NoDup (a :: syms) -> length syms = length i -> two_letters_free (a :: syms) ->
  yields (let! d := CovariantD [a] in let! x := calc_call t syms in matmul d x) m c name [(name ++ " Christoffel")%string]
    (a :: syms) (-1 :: i)%Z (fun idx => covariant_of n (cx xs) Gam i h (nth 0 idx 0) (tl idx)) w.
Proof. exact (gradient_value n m c name xs g gi w t i h syms a). Qed.
(** The last hypothesis holds for up to 24 symbols. *)
Theorem C100_letters l : length l <= 24 -> two_letters_free l.
Proof. exact (letters_free l). Qed.

(** C101.  CovariantD("a") @ T(..., a, ...): the covariant divergence. *)
Theorem C101_divergence_value w t i h l1 l2 a :
  session w -> known w -> tensor_value w n m c t i h -> ~ named w "TEMP" t -> valid_cfg i ->
  NoDup (l1 ++ a :: l2) -> length (l1 ++ a :: l2) = length i -> two_letters_free (l1 ++ a :: l2) ->
  yields (let! d := CovariantD [a] in let! x := calc_call t (l1 ++ a :: l2) in matmul d x) m c name [(name ++ " Christoffel")%string]
    (l1 ++ l2) (firstn (length l1) i ++ skipn (S (length l1)) i) (divergence_of n (cx xs) Gam gi i h (length l1)) w.
Proof. exact (divergence_value n m c name xs g gi w t i h l1 l2 a). Qed.

(** C102, for every such session: with the derivative on the right the components are in the
    order of C100, the symbols are not. *)
Theorem C102_right_value w t i h syms a :
  session w -> known w -> tensor_value w n m c t i h -> ~ named w "TEMP" t -> valid_cfg i ->
  NoDup (a :: syms) -> length syms = length i -> two_letters_free (a :: syms) ->
  yields (let! x := calc_call t syms in let! d := CovariantD [a] in matmul x d) m c name [(name ++ " Christoffel")%string]
    (syms ++ [a]) (-1 :: i)%Z (fun idx => covariant_of n (cx xs) Gam i h (nth 0 idx 0) (tl idx)) w.
Proof. exact (right_value n m c name xs g gi w t i h syms a). Qed.

(** C104 *)
Theorem C104_metric_constant w k i j : session w -> known w -> NoDup [k; i; j] ->
  yields (let! d := CovariantD [k] in let! x := calc_call m [i; j] in matmul d x) m c name [(name ++ " Christoffel")%string]
    [k; i; j] [-1; -1; -1]%Z (fun _ => k0) w.
Proof. exact (metric_constant n m c name xs g gi w k i j). Qed.

(** C105.  The terms are the components of the covariant derivative of the Riemann tensor that
    C100 speaks of; C50 says that calc_riemann_tensor has the components Rie. *)
Theorem C105_second_bianchi (Hs : symmetric_fun n g) a b p q r : p < n -> q < n -> r < n ->
  let cov p q r := covariant_of n (cx xs) Gam [1; -1; -1; -1]%Z (at4 Rie) r [a; b; p; q] in
  keq (kadd (kadd (cov p q r) (cov q r p)) (cov r p q)) k0.
Proof. exact (bianchi_values n xs g gi Hs a b p q r). Qed.

(** C106 *)
Theorem C106_einstein_divergence w a b : session w -> known w -> a <> b ->
  yields (let! t := calc_einstein m in let! d := CovariantD [a] in let! x := calc_call t [a; b] in matmul d x) m c name
    [(name ++ " Christoffel"); (name ++ " Riemann"); (name ++ " Ricci Tensor"); (name ++ " Ricci Scalar"); (name ++ " Einstein")]%string
    [b] [-1]%Z (fun _ => k0) w.
Proof. exact (einstein_divergence n m c name xs g gi w a b). Qed.
End Cov.
Print Assumptions C100_gradient_value.
Print Assumptions C100_letters.
Print Assumptions C101_divergence_value.
Print Assumptions C102_right_value.
Print Assumptions C104_metric_constant.
Print Assumptions C105_second_bianchi.
Print Assumptions C106_einstein_divergence.

(** A session with a metric that is not constant and a tensor of rank 2 meets the hypotheses. *)
Example covariant_hypotheses_met :
  metric_session ex_calc_w 2 2 0 "g" ex_xs (mat2 ex_g) (mat2 ex_gi) /\ known_results 2 ex_xs (mat2 ex_g) (mat2 ex_gi) ex_calc_w 2 0 "g" /\
  (exists h, tensor_value ex_calc_w 2 2 0 8 [1; -1]%Z h) /\ ~ named ex_calc_w "TEMP" 8 /\ valid_cfg [1; -1]%Z /\
  NoDup ["a"; "b"; "c"]%string /\ two_letters_free ["a"; "b"; "c"]%string.
Proof. exact ex_covariant_hyps. Qed.

(** C102.  The property is false. *)
Theorem C102_derivative_on_the_right_refuted :
  exists (w : @world PolyOps) t x w0 d z1 w1 z2 w2 t1 r1 w3 t2 r2 w4 f,
  reachable w /\ calc_call t ["b"]%string w = (Ok x, w0) /\ CovariantD ["a"]%string w0 = (Ok d, w0) /\
  matmul d x w0 = (Ok z1, w1) /\ c_tensor z1 = Some t1 /\ get_components t1 None None w1 = (Ok r1, w3) /\
  matmul x d w0 = (Ok z2, w2) /\ c_tensor z2 = Some t2 /\ get_components t2 None None w2 = (Ok r2, w4) /\
  Permutation (c_syms z1) (c_syms z2) /\
  ~ keq (aget r1 (map f (c_syms z1))) (aget r2 (map f (c_syms z2))).
Proof. exact right_covariant_witness. Qed.
Print Assumptions C102_derivative_on_the_right_refuted.

(** C103.  The property is false: the second derivative removes the temporary tensor of the
    first one, so the sum in the Killing equation cannot be formed. *)
Theorem C103_sum_of_covariant_derivatives_refuted :
  exists (w : @world PolyOps) t x w0 z1 w1 y w2 z2 w3 w4,
  reachable w /\ calc_call t ["b"]%string w = (Ok x, w0) /\ matmul (mkCalc None ["a"]%string RCovariant) x w0 = (Ok z1, w1) /\
  calc_call t ["a"]%string w1 = (Ok y, w2) /\ matmul (mkCalc None ["b"]%string RCovariant) y w2 = (Ok z2, w3) /\
  c_syms z1 = ["a"; "b"]%string /\ c_syms z2 = ["b"; "a"]%string /\ calc_add z1 (OCalc z2) w3 = (Err EValueError, w4).
Proof. exact killing_witness. Qed.
Print Assumptions C103_sum_of_covariant_derivatives_refuted.
