(** Conservation laws: C201, C202, C203. *)
From Verif Require Import Alg Arr Spec TensorM WorldM SpecWorld CalcM SpecCalc CurvM SpecCurv GeodM SpecGeod SpecCov SpecCurve SpecDeriv SpecKilling ChargeRun_P KillingGeod_P LeibDiv_P Current_P Inst Ex ExWorld ExForm Witness_Charge_P.
From Verif Require Import SpecHead SpecLeib SpecForm.
Local Open Scope nat_scope.

Section Charge.
Context {A : AlgOps} {L : AlgLaws A} {D : DiffLaws A}.
Variables (n : nat) (m c : oid) (name : string) (xs : list string) (g gi : nat -> nat -> K).
Notation session w := (metric_session w n m c name xs g gi).
Notation known w := (known_results n xs g gi w m c name).

(** C201.  j = Calc(CovariantD("b") @ F("a b"), name=nm); CovariantD("a") @ j("a") is zero for every
    antisymmetric F with two upper or two lower indices. *)
Theorem C201_divergence_of_a_divergence w t z h a b nm :
  session w -> known w -> (z = 1 \/ z = -1)%Z -> tensor_value w n m c t [z; z] h -> ~ named w "TEMP" t ->
  (forall p q, p < n -> q < n -> keq (h [p; q]) (kopp (h [q; p]))) ->
  nm <> "TEMP"%string -> ~ In nm (curvature_names name) -> a <> b -> two_letters_free [a; b] ->
  yields n xs g gi
    (let! d := CovariantD [b] in let! x := calc_call t [a; b] in let! y := matmul d x in
     let! j := run_calc y nm "" [] in
     let! d' := CovariantD [a] in let! x' := calc_call j [a] in matmul d' x') m c name
    [nm; (name ++ " Christoffel")%string] [] [] (fun _ => k0) w.
Proof. exact (charge_computed n m c name xs g gi w t z h a b nm). Qed.

Section Formula.
(** [conf t] and [T t] are the configuration and the covariant components of the tensor [t]. *)
Variables (conf : oid -> list Z) (T : oid -> list nat -> K).
Notation raised t := (act n (map (conv g gi (-1)%Z) (conf t)) (T t)).
Notation nabla i h := (covariant_of n (cx xs) (Gam n xs g gi) i h).

(** C203.  CovariantD("a") @ Calc(formula, "nm")("... a ...") is the divergence over the index in the
    place of "a", for every formula without derivatives. *)
Theorem C203_divergence_of_a_formula letters p nm l1 a l2 w :
  session w -> known w -> well_formed conf p -> algebraic p ->
  (forall t, In t (leaves p) -> operand w n m c g gi t (conf t) (raised t)) ->
  nm <> "TEMP"%string -> ~ In nm (curvature_names name) ->
  NoDup (l1 ++ a :: l2) -> length (l1 ++ a :: l2) = length (free_cfg conf p) -> free_letters letters (l1 ++ a :: l2) ->
  exists z w' b,
    (let! x := eval p in let! t := run_calc x nm "" [] in derivative_of letters a t (l1 ++ a :: l2)) w = (Ok z, w') /\
    result_is w' z (l1 ++ l2) m c (firstn (length l1) (free_cfg conf p) ++ skipn (S (length l1)) (free_cfg conf p)) b /\
    holds n (length (l1 ++ l2)) b (nabla_divergence conf n xs g gi T p (length l1)) /\
    session w' /\ known w' /\ only_adds_and_grows (leaves p) ["TEMP"; nm; (name ++ " Christoffel")]%string w w'.
Proof. exact (formula_divergence n m c name xs g gi conf T letters p nm l1 a l2 w). Qed.

(** The current j = Calc(T("a b") @ X("b"), "nm") of a symmetric tensor without divergence and a
    symmetry X of the metric has no divergence. *)
Theorem C203_current_of_a_symmetry letters t u a b nm e w :
  a <> b -> length (conf t) = 2 -> length (conf u) = 1 -> valid_cfg (conf t) ->
  session w -> known w -> operand w n m c g gi t (conf t) (raised t) -> operand w n m c g gi u (conf u) (raised u) ->
  nm <> "TEMP"%string -> ~ In nm (curvature_names name) -> free_letters letters [e] ->
  (forall i j, i < n -> j < n -> keq (T t [i; j]) (T t [j; i])) ->
  (forall i, i < n -> keq (nsum n (fun k => nsum n (fun s => kmul (gi k s) (nabla [-1; -1]%Z (T t) k [s; i])))) k0) ->
  (forall k q, k < n -> q < n -> keq (kadd (nabla [-1]%Z (T u) k [q]) (nabla [-1]%Z (T u) q [k])) k0) ->
  exists z w' r,
    (let! x := calc_call t [a; b] in let! y := calc_call u [b] in let! z := matmul0 x y in
     let! j := run_calc z nm "" [] in derivative_of letters e j [e]) w = (Ok z, w') /\
    result_is w' z [] m c [] r /\ holds n 0 r (fun _ => k0) /\
    session w' /\ known w' /\ only_adds_and_grows [t; u] ["TEMP"; nm; (name ++ " Christoffel")]%string w w'.
Proof. intros H1 H2 H3 H4. exact (current_computed n m c name xs g gi conf T t u a b H1 H2 H3 H4 letters nm e w). Qed.
End Formula.
End Charge.
Print Assumptions C201_divergence_of_a_divergence.
Print Assumptions C203_divergence_of_a_formula.
Print Assumptions C203_current_of_a_symmetry.

Section Curves.
Context {A : AlgOps} {L : AlgLaws A} {D : DiffLaws A} {C : CleanLaws A} {Y : SymLaws A}.
Variables (n : nat) (m c : oid) (name : string) (xs : list string) (g gi : nat -> nat -> K).
Notation session w := (metric_session w n m c name xs g gi).
Notation known w := (known_results n xs g gi w m c name).
Notation curves w := (known_curves n xs g gi w m c name).
Notation v i := (velocity (nth i xs ""%string)).

(** C202.  The rate of change of h_q v^q along a curve is v^i v^j times what CovariantD("a") @ h("b")
    computes plus a combination of the geodesic equations. *)
Theorem C202_rate_along_a_curve w t h coords a b :
  session w -> known w -> curves w -> static_metric n xs g -> coords = None \/ coords = Some c ->
  tensor_value w n m c t [-1]%Z h -> ~ named w "TEMP" t -> without_velocities n xs h -> a <> b -> two_letters_free [a; b] ->
  exists f u w1 e,
    yields n xs g gi (SpecDeriv.derivative t a [b]) m c name [(name ++ " Christoffel")%string] [a; b] [-1; -1]%Z f w /\
    calc_geodesic_christoffel m coords w = (Ok u, w1) /\ tensor_value w1 n m c u [1]%Z e /\
    exists r r', (forall s, s < n -> keq (kmul (r s) (r' s)) k1) /\
      keq (rate "lambda" xs (along xs n h))
        (kadd (nsum n (fun i => nsum n (fun j => kmul (f [i; j]) (kmul (v i) (v j)))))
              (nsum n (fun s => kmul (h [s]) (kmul (r s) (e [s]))))).
Proof. exact (killing_rate n m c name xs g gi w t h coords a b). Qed.

(** For a symmetry of the metric it is a combination of the equations that
    calc_geodesic_lagrangian returns, and of those that calc_geodesic_christoffel returns. *)
Theorem C202_conserved_along_geodesics w t h X coords :
  session w -> known w -> curves w -> static_metric n xs g -> coords = None \/ coords = Some c ->
  tensor_value w n m c t [-1]%Z h -> without_velocities n xs h -> lowered_vector n g X h ->
  (forall p q, p < n -> q < n -> keq (lie_metric n (cx xs) g X p q) k0) ->
  exists t1 w1 e u w2 f,
    calc_geodesic_lagrangian m coords w = (Ok t1, w1) /\ tensor_value w1 n m c t1 [1]%Z e /\
    calc_geodesic_christoffel m coords w1 = (Ok u, w2) /\ tensor_value w2 n m c u [1]%Z f /\
    (exists r r', (forall k, k < n -> keq (kmul (r k) (r' k)) k1) /\
       keq (rate "lambda" xs (along xs n h)) (nsum n (fun k => kmul (X k) (kmul (r k) (e [k]))))) /\
    (exists r r', (forall s, s < n -> keq (kmul (r s) (r' s)) k1) /\
       keq (rate "lambda" xs (along xs n h)) (nsum n (fun s => kmul (h [s]) (kmul (r s) (f [s]))))).
Proof. exact (killing_conserved n m c name xs g gi w t h X coords). Qed.
End Curves.
Print Assumptions C202_rate_along_a_curve.
Print Assumptions C202_conserved_along_geodesics.

(** The plane wave 2 du dv + x^2 du^2 + dx^2. *)
Example charge_session_met :
  metric_session wave_w 3 1 0 "g" wave_xs (wmat wave_g) (wmat wave_gi) /\
  known_results 3 wave_xs (wmat wave_g) (wmat wave_gi) wave_w 1 0 "g" /\
  known_curves 3 wave_xs (wmat wave_g) (wmat wave_gi) wave_w 1 0 "g" /\
  static_metric 3 wave_xs (wmat wave_g).
Proof. exact wave_session. Qed.
Example charge_tensor_met :
  (exists h, tensor_value wave_w 3 1 0 4 [1; 1]%Z h /\ (forall p q, p < 3 -> q < 3 -> keq (h [p; q]) (kopp (h [q; p]))) /\
     ~ keq (kdiff (cx wave_xs 0) (h [0; 2])) k0) /\ ~ named wave_w "TEMP" 4 /\
  "J"%string <> "TEMP"%string /\ ~ In "J"%string (curvature_names "g") /\ "a"%string <> "b"%string /\ two_letters_free ["a"; "b"]%string.
Proof. exact wave_charge. Qed.
Example charge_symmetry_met :
  (exists h, tensor_value wave_w 3 1 0 2 [-1]%Z h /\ without_velocities 3 wave_xs h /\ lowered_vector 3 (wmat wave_g) wave_X h) /\
  ~ named wave_w "TEMP" 2 /\
  (forall p q, p < 3 -> q < 3 -> keq (lie_metric 3 (cx wave_xs) (wmat wave_g) wave_X p q) k0) /\
  ~ keq (kdiff (cx wave_xs 2) (aget wave_h [0])) k0.
Proof. exact wave_symmetry. Qed.
(** x du du and the symmetry along u *)
Example charge_current_met :
  (forall t, t = 2 \/ t = 3 -> operand wave_w 3 1 0 (wmat wave_g) (wmat wave_gi) t (wave_conf t)
    (act 3 (map (conv (wmat wave_g) (wmat wave_gi) (-1)%Z) (wave_conf t)) (wave_cov t))) /\
  length (wave_conf 3) = 2 /\ length (wave_conf 2) = 1 /\ valid_cfg (wave_conf 3) /\
  free_letters all_symbols ["a"]%string /\
  (forall i j, i < 3 -> j < 3 -> keq (wave_cov 3 [i; j]) (wave_cov 3 [j; i])) /\
  (forall i, i < 3 -> keq (nsum 3 (fun k => nsum 3 (fun s => kmul (wmat wave_gi k s)
     (covariant_of 3 (cx wave_xs) (Gam 3 wave_xs (wmat wave_g) (wmat wave_gi)) [-1; -1]%Z (wave_cov 3) k [s; i])))) k0) /\
  (forall k q, k < 3 -> q < 3 -> keq (kadd
     (covariant_of 3 (cx wave_xs) (Gam 3 wave_xs (wmat wave_g) (wmat wave_gi)) [-1]%Z (wave_cov 2) k [q])
     (covariant_of 3 (cx wave_xs) (Gam 3 wave_xs (wmat wave_g) (wmat wave_gi)) [-1]%Z (wave_cov 2) q [k])) k0) /\
  ~ keq (covariant_of 3 (cx wave_xs) (Gam 3 wave_xs (wmat wave_g) (wmat wave_gi)) [-1]%Z (wave_cov 2) 0 [2]) k0.
Proof. exact wave_current. Qed.
(** CovariantD("e") @ Calc(2 * S("b a") @ V("c"), "W")("b e d") *)
Example charge_formula_met :
  metric_session ex_form_w 3 2 0 "g" (g_syms ex_geo3 0) (g_G ex_geo3 0) (g_Gi ex_geo3 0) /\
  known_results 3 (g_syms ex_geo3 0) (g_G ex_geo3 0) (g_Gi ex_geo3 0) ex_form_w 2 0 "g" /\
  well_formed ex_conf div_formula /\ algebraic div_formula /\
  (forall t, In t (leaves div_formula) ->
     operand ex_form_w 3 2 0 (g_G ex_geo3 0) (g_Gi ex_geo3 0) t (ex_conf t)
       (act 3 (map (conv (g_G ex_geo3 0) (g_Gi ex_geo3 0) (-1)%Z) (ex_conf t)) (ex_cov t 0))) /\
  free_cfg ex_conf div_formula = [1; -1; 1]%Z /\ NoDup ["b"; "e"; "d"]%string /\ free_letters all_symbols ["b"; "e"; "d"]%string /\
  exists idx, ~ keq (nabla_divergence ex_conf 3 (g_syms ex_geo3 0) (g_G ex_geo3 0) (g_Gi ex_geo3 0) (fun t => ex_cov t 0) div_formula 1 idx) k0.
Proof. exact div_all. Qed.
