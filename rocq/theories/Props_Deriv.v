(** Repeated covariant derivatives, the Ricci identity, the product rule: C168 - C171. *)
From Verif Require Import Alg Arr Spec TensorM WorldM SpecWorld CalcM SpecCalc CurvM SpecCurv SpecCov SpecDeriv Deriv_P Inst Ex ExWorld Witness_Curv_P Witness_Cov_P Witness_Deriv_P.
Local Open Scope nat_scope.

Section Deriv.
Context {A : AlgOps} {L : AlgLaws A} {D : DiffLaws A}.
Variables (n : nat) (m c : oid) (name : string) (xs : list string) (g gi : nat -> nat -> K).
Notation session w := (metric_session w n m c name xs g gi).
Notation known w := (known_results n xs g gi w m c name).
Notation Gam := (Gam n xs g gi).
Notation Rie := (Rie n xs g gi).
Notation yields := (yields n xs g gi).
Notation makes := (makes n xs g gi).

(** C168.  Any number of derivatives, each made a tensor with Calc before the next one. *)
Theorem C168_repeated_derivatives w t i h steps :
  session w -> known w -> tensor_value w n m c t i h -> ~ named w "TEMP" t -> valid_cfg i ->
  fit name (length i) steps ->
  makes (derivatives steps t) m c name
    ((name ++ " Christoffel")%string :: map (fun s => fst (fst s)) steps)
    (repeat (-1)%Z (length steps) ++ i) (iterated n (cx xs) Gam i h (length steps)) w.
Proof. exact (repeated_value n m c name xs g gi w t i h steps). Qed.

(** C169.  The commutator of two covariant derivatives is the curvature, for tensors of every
    rank; for a scalar the two derivatives commute. *)
Theorem C169_ricci_identity w t i h nm a b syms :
  session w -> known w -> tensor_value w n m c t i h -> ~ named w "TEMP" t -> valid_cfg i ->
  nm <> "TEMP"%string -> ~ In nm (curvature_names name) ->
  NoDup (a :: b :: syms) -> length syms = length i -> two_letters_free (a :: b :: syms) ->
  exists f,
    yields (let! z := derivative t b syms in let! t' := run_calc z nm "" [] in derivative t' a (b :: syms)) m c name
      [nm; (name ++ " Christoffel")%string] (a :: b :: syms) (-1 :: -1 :: i)%Z f w /\
    forall p q idx, p < n -> q < n -> in_range n (length i) idx ->
      keq (ksub (f (p :: q :: idx)) (f (q :: p :: idx))) (curvature_terms n Rie i h p q idx).
Proof. exact (ricci_computed n m c name xs g gi w t i h nm a b syms). Qed.

(** C170.  The derivative of the product S("ab...") @ T("cd...") without a shared symbol. *)
Theorem C170_product_rule w t1 i1 h1 s1 t2 i2 h2 s2 nm a :
  session w -> known w -> tensor_value w n m c t1 i1 h1 -> tensor_value w n m c t2 i2 h2 ->
  valid_cfg i1 -> valid_cfg i2 -> NoDup (a :: s1 ++ s2) -> length s1 = length i1 -> length s2 = length i2 ->
  two_letters_free (a :: s1 ++ s2) -> nm <> "TEMP"%string -> ~ In nm (curvature_names name) ->
  yields (let! x := calc_call t1 s1 in let! y := calc_call t2 s2 in let! z := matmul x y in
          let! t := run_calc z nm "" [] in derivative t a (s1 ++ s2)) m c name
    [nm; (name ++ " Christoffel")%string] (a :: s1 ++ s2) (-1 :: i1 ++ i2)%Z
    (fun idx =>
       let k := nth 0 idx 0 in
       let r1 := firstn (length i1) (tl idx) in
       let r2 := skipn (length i1) (tl idx) in
       kadd (kmul (covariant_of n (cx xs) Gam i1 h1 k r1) (h2 r2))
            (kmul (h1 r1) (covariant_of n (cx xs) Gam i2 h2 k r2))) w.
Proof. exact (product_derivative n m c name xs g gi w t1 i1 h1 s1 t2 i2 h2 s2 nm a). Qed.

(** C171.  The derivative of a tensor with raised and lowered indices is the derivative with the
    same indices raised and lowered. *)
Theorem C171_raising_commutes w u i j h syms a :
  session w -> known w -> tensor_value w n m c u j (converted n g gi i j h) -> ~ named w "TEMP" u ->
  valid_cfg i -> valid_cfg j -> length i = length j ->
  NoDup (a :: syms) -> length syms = length j -> two_letters_free (a :: syms) ->
  yields (derivative u a syms) m c name [(name ++ " Christoffel")%string] (a :: syms) (-1 :: j)%Z
    (converted n g gi (-1 :: i)%Z (-1 :: j)%Z
       (fun idx => covariant_of n (cx xs) Gam i h (nth 0 idx 0) (tl idx))) w.
Proof. exact (raised_derivative n m c name xs g gi w u i j h syms a). Qed.
End Deriv.
Print Assumptions C168_repeated_derivatives.
Print Assumptions C169_ricci_identity.
Print Assumptions C170_product_rule.
Print Assumptions C171_raising_commutes.

(** A session with a metric that is not constant and a tensor C^a_b meets the hypotheses
    ([covariant_hypotheses_met] beside C100); three derivatives, a name for the tensor in
    between, and a tensor that has been raised and lowered. *)
Example deriv_session_met :
  metric_session ex_calc_w 2 2 0 "g" ex_xs (mat2 ex_g) (mat2 ex_gi) /\ known_results 2 ex_xs (mat2 ex_g) (mat2 ex_gi) ex_calc_w 2 0 "g" /\
  (exists h, tensor_value ex_calc_w 2 2 0 8 [1; -1]%Z h) /\ ~ named ex_calc_w "TEMP" 8 /\ valid_cfg [1; -1]%Z /\
  NoDup ["a"; "b"; "c"]%string /\ two_letters_free ["a"; "b"; "c"]%string.
Proof. exact ex_covariant_hyps. Qed.
Example deriv_steps_met : length ex_steps = 3 /\ fit "g" 2 ex_steps.
Proof. exact (conj eq_refl ex_fit). Qed.
Example deriv_name_met : "P"%string <> "TEMP"%string /\ ~ In "P"%string (curvature_names "g").
Proof. exact ex_new_name. Qed.
Example deriv_raised_met : exists h,
  tensor_value ex_calc_w 2 2 0 8 [1; -1]%Z (converted 2 (mat2 ex_g) (mat2 ex_gi) [-1; 1]%Z [1; -1]%Z h).
Proof. exact ex_raised. Qed.
