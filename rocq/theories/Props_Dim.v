(** Curvature in two and three dimensions, vacuum, flat metrics, conserved quantities, nested
    covariant derivatives: C161 - C167. *)
From Verif Require Import Alg Arr Spec TensorM WorldM SpecWorld CalcM SpecCalc CurvM SpecCurv SpecChange SpecDim GeodM SpecGeod SpecCurve CurvDim2_P GeodCons_P Inst Ex ExWorld Witness_Curv_P Witness_Dim_P.
Local Open Scope nat_scope.

Section Dim.
Context {A : AlgOps} {L : AlgLaws A} {D : DiffLaws A}.
Variables (n : nat) (m c : oid) (name : string) (xs : list string) (g gi : nat -> nat -> K).
Notation session w := (metric_session w n m c name xs g gi).
Notation known w := (known_results n xs g gi w m c name).
Notation curves w := (known_curves n xs g gi w m c name).

(** C161 *)
Theorem C161_einstein_in_two_dimensions w : session w -> known w -> n = 2 ->
  gives n xs g gi (calc_einstein m) m c name
    [(name ++ " Christoffel"); (name ++ " Riemann"); (name ++ " Ricci Tensor"); (name ++ " Ricci Scalar"); (name ++ " Einstein")]%string
    [-1; -1]%Z (fun _ => k0) w.
Proof. exact (einstein_two_gives n m c name xs g gi w). Qed.

(** C162 *)
Theorem C162_weyl_in_three_dimensions w : session w -> known w -> n = 3 ->
  (forall j, In j (insts w) -> named w (name ++ " Ricci Tensor") j -> ~ used w j) ->
  exists t w', calc_weyl m w = (Ok t, w') /\ In t (insts w') /\
    tensor_value w' n m c t [-1; -1; -1; -1]%Z (fun _ => k0) /\ session w' /\ known w'.
Proof. exact (weyl_three_gives n m c name xs g gi w). Qed.

(** C163 *)
Theorem C163_vacuum w : session w -> known w -> n <> 2 ->
  exists t w1 u w2 e r, calc_einstein m w = (Ok t, w1) /\ tensor_value w1 n m c t [-1; -1]%Z e /\
    calc_ricci m w1 = (Ok u, w2) /\ tensor_value w2 n m c u [-1; -1]%Z r /\
    (vanishes n 2 e <-> vanishes n 2 r).
Proof. exact (vacuum n m c name xs g gi w). Qed.

(** C165.  [rate] is the derivative along the curve.  The equations computed, up to invertible
    factors, add up to it: it is zero wherever they hold. *)
Theorem C165_lagrangian_conserved {C : CleanLaws A} {Y : SymLaws A} w coords :
  session w -> known w -> curves w -> static_metric n xs g -> coords = None \/ coords = Some c ->
  exists l w1 h t w2 e u w3 f, calc_lagrangian m coords w = (Ok l, w1) /\ tensor_value w1 n m c l [] h /\
    calc_geodesic_lagrangian m coords w1 = (Ok t, w2) /\ tensor_value w2 n m c t [1]%Z e /\
    calc_geodesic_christoffel m coords w2 = (Ok u, w3) /\ tensor_value w3 n m c u [1]%Z f /\
    (exists a a', (forall k, k < n -> keq (kmul (a k) (a' k)) k1) /\
       keq (rate "lambda" xs (h [])) (kmul (knat 2) (nsum n (fun k =>
         kmul (velocity (nth k xs ""%string)) (kmul (a k) (e [k])))))) /\
    (exists b b', (forall k, k < n -> keq (kmul (b k) (b' k)) k1) /\
       keq (rate "lambda" xs (h [])) (kmul (knat 2) (nsum n (fun k =>
         kmul (velocity (nth k xs ""%string)) (nsum n (fun s => kmul (g k s) (kmul (b s) (f [s])))))))).
Proof. exact (conserved n m c name xs g gi w coords). Qed.

(** C166 *)
Theorem C166_momentum_conserved {C : CleanLaws A} {Y : SymLaws A} w coords k :
  session w -> known w -> curves w -> static_metric n xs g -> coords = None \/ coords = Some c ->
  k < n -> (forall i j, i < n -> j < n -> keq (kdiff (nth k xs ""%string) (g i j)) k0) ->
  exists l w1 h t w2 e, calc_lagrangian m coords w = (Ok l, w1) /\ tensor_value w1 n m c l [] h /\
    calc_geodesic_lagrangian m coords w1 = (Ok t, w2) /\ tensor_value w2 n m c t [1]%Z e /\
    unit_multiple (rate "lambda" xs (kdiff (nth k xs "" ++ "dot")%string (h []))) (e [k]).
Proof. exact (conserved_momentum n m c name xs g gi w coords k). Qed.
End Dim.
Print Assumptions C161_einstein_in_two_dimensions.
Print Assumptions C162_weyl_in_three_dimensions.
Print Assumptions C163_vacuum.
Print Assumptions C165_lagrangian_conserved.
Print Assumptions C166_momentum_conserved.

Example C161_hypotheses_met : metric_session ex_w 2 2 0 "g" ex_xs (mat2 ex_g) (mat2 ex_gi) /\
  known_results 2 ex_xs (mat2 ex_g) (mat2 ex_gi) ex_w 2 0 "g".
Proof. exact ex_two_session. Qed.
(** Here the Ricci tensor is not zero. *)
Example C162_C163_hypotheses_met : metric_session ex_three_w 3 1 0 "g" ex_xyz (mat2 ex_g3) (mat2 ex_gi3) /\
  known_results 3 ex_xyz (mat2 ex_g3) (mat2 ex_gi3) ex_three_w 1 0 "g" /\
  (forall j, In j (insts ex_three_w) -> ~ named ex_three_w "g Ricci Tensor" j) /\
  ~ keq (Ric 3 ex_xyz (mat2 ex_g3) (mat2 ex_gi3) 0 0) k0.
Proof. exact ex_three_free. Qed.
(** The second coordinate is cyclic, the first is not. *)
Example C165_C166_hypotheses_met : metric_session ex_w 2 2 0 "g" ex_xs (mat2 ex_g) (mat2 ex_gi) /\
  known_results 2 ex_xs (mat2 ex_g) (mat2 ex_gi) ex_w 2 0 "g" /\ known_curves 2 ex_xs (mat2 ex_g) (mat2 ex_gi) ex_w 2 0 "g" /\
  static_metric 2 ex_xs (mat2 ex_g) /\
  (forall i j, i < 2 -> j < 2 -> keq (kdiff (nth 1 ex_xs ""%string) (mat2 ex_g i j)) k0) /\
  ~ keq (kdiff (nth 0 ex_xs ""%string) (mat2 ex_g 0 1)) k0.
Proof. exact ex_cyclic. Qed.

(** C164.  [c] are the default coordinates of the metric, [d] any to which rules lead. *)
Theorem C164_flat_metric : forall {A : AlgOps} {L : AlgLaws A} {D : DiffLaws A} {SL : SubsLaws A} {IL : InvLaws A} G m c name w d,
  consistent G -> regular G -> g_sys G c -> constant_metric G c ->
  metric_session w (g_n G) m c name (g_syms G c) (g_G G c) (g_Gi G c) ->
  known_results (g_n G) (g_syms G c) (g_G G c) (g_Gi G c) w m c name ->
  metric_represents G m w -> (forall k, g_sys G k -> ~ named w "TEMP" k) -> linked G c d ->
  gives_zero G (calc_riemann m) m 4 d w /\ gives_zero G (calc_ricci m) m 2 d w /\
  gives_zero G (calc_ricci_scalar m) m 0 d w /\ gives_zero G (calc_einstein m) m 2 d w.
Proof. exact (fun A L D SL IL G m c name w d HC HR Hc Hk HS HK HM HT => flat_everywhere G HC HR m c name w Hc Hk HS HK HM HT d). Qed.
Theorem C164_flat_weyl : forall {A : AlgOps} {L : AlgLaws A} {D : DiffLaws A} {SL : SubsLaws A} {IL : InvLaws A} G m c name w d,
  consistent G -> regular G -> g_sys G c -> constant_metric G c ->
  metric_session w (g_n G) m c name (g_syms G c) (g_G G c) (g_Gi G c) ->
  known_results (g_n G) (g_syms G c) (g_G G c) (g_Gi G c) w m c name ->
  metric_represents G m w -> (forall k, g_sys G k -> ~ named w "TEMP" k) -> linked G c d -> 3 <= g_n G ->
  (forall j, In j (insts w) -> named w (name ++ " Ricci Tensor") j -> ~ used w j) ->
  gives_zero G (calc_weyl m) m 4 d w.
Proof. exact (fun A L D SL IL G m c name w d HC HR Hc Hk HS HK HM HT => flat_weyl_everywhere G HC HR m c name w Hc Hk HS HK HM HT d). Qed.
Theorem C164_flat_christoffel : forall {A : AlgOps} {L : AlgLaws A} {D : DiffLaws A} n m c name xs g gi w,
  (forall k i j, k < n -> i < n -> j < n -> keq (kdiff (nth k xs ""%string) (g i j)) k0) ->
  metric_session w n m c name xs g gi -> known_results n xs g gi w m c name ->
  gives n xs g gi (calc_christoffel m) m c name [(name ++ " Christoffel")%string] [1; -1; -1]%Z (fun _ => k0) w.
Proof. exact (fun A L D => @flat_christoffel A L D). Qed.
Print Assumptions C164_flat_metric.
Print Assumptions C164_flat_weyl.
Print Assumptions C164_flat_christoffel.
(** The metric is constant in the coordinates 0 and not in the coordinates 1. *)
Example C164_hypotheses_met :
  consistent ex_flat_geo /\ regular ex_flat_geo /\ g_sys ex_flat_geo 0 /\ constant_metric ex_flat_geo 0 /\
  linked ex_flat_geo 0 1 /\ ~ constant_metric ex_flat_geo 1 /\ 3 <= g_n ex_flat_geo /\
  metric_session ex_flat_w (g_n ex_flat_geo) 2 0 "g" (g_syms ex_flat_geo 0) (g_G ex_flat_geo 0) (g_Gi ex_flat_geo 0) /\
  known_results (g_n ex_flat_geo) (g_syms ex_flat_geo 0) (g_G ex_flat_geo 0) (g_Gi ex_flat_geo 0) ex_flat_w 2 0 "g" /\
  metric_represents ex_flat_geo 2 ex_flat_w /\ (forall k, g_sys ex_flat_geo k -> ~ named ex_flat_w "TEMP" k) /\
  (forall j, In j (insts ex_flat_w) -> ~ named ex_flat_w "g Ricci Tensor" j) /\
  exists t w' a w'', calc_ricci 2 ex_flat_w = (Ok t, w') /\ ~ In t (insts ex_flat_w) /\
    get_components t (Some 1) (Some [1; -1]%Z) w' = (Ok a, w'').
Proof. exact ex_flat_all. Qed.

(** C167.  The property is false: the operand is a temporary tensor, and the formula removes it
    before it reads its attributes a last time. *)
Theorem C167_nested_covariant_derivative_refuted :
  exists (w : @world PolyOps) t x w0 d w1 z w2 e w3 w4,
  reachable w /\ calc_call t ["c"]%string w = (Ok x, w0) /\ CovariantD ["b"]%string w0 = (Ok d, w1) /\
  matmul d x w1 = (Ok z, w2) /\ CovariantD ["a"]%string w2 = (Ok e, w3) /\ matmul e z w3 = (Err EAttributeError, w4).
Proof. exact nested_covariant_witness. Qed.
Print Assumptions C167_nested_covariant_derivative_refuted.
Theorem C167_covariant_derivative_of_a_sum_refuted :
  exists (w : @world PolyOps) t x w0 z w2 e w3 w4,
  reachable w /\ calc_call t ["b"]%string w = (Ok x, w0) /\ calc_add x (OCalc x) w0 = (Ok z, w2) /\
  CovariantD ["a"]%string w2 = (Ok e, w3) /\ matmul e z w3 = (Err EAttributeError, w4).
Proof. exact covariant_of_sum_witness. Qed.
Print Assumptions C167_covariant_derivative_of_a_sum_refuted.
