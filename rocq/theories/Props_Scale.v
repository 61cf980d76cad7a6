(** Metrics that differ by a factor: C189, C190. *)
From Coq Require Import QArith.
From Verif Require Import Alg Arr Spec TensorM WorldM SpecWorld CalcM SpecCalc CurvM SpecCurv SpecScale Scale_P Conf_P Inst InstExp ExWorld Witness_Volume_P Witness_Scale_P.
Local Open Scope nat_scope.

Section Scale.
Context {A : AlgOps} {L : AlgLaws A} {D : DiffLaws A}.
Variables (n : nat) (xs : list string).

(** C189.  If the metric m' is a constant a times the metric m, in the same coordinates, the
    Christoffel symbols, the Riemann tensor, the Ricci tensor and the Einstein tensor that are
    computed are the same, and the Ricci scalar is divided by a. *)
Theorem C189_rescaled_metric m c m' c' name name' g gi g' gi' a b w w' :
  metric_session w n m c name xs g gi -> known_results n xs g gi w m c name ->
  metric_session w' n m' c' name' xs g' gi' -> known_results n xs g' gi' w' m' c' name' ->
  times_metric n a g g' -> keq (kmul a b) k1 -> constant xs a ->
  in_ratio n [1; -1; -1]%Z k1 (calc_christoffel m) m c w (calc_christoffel m') m' c' w' /\
  in_ratio n [1; -1; -1; -1]%Z k1 (calc_riemann m) m c w (calc_riemann m') m' c' w' /\
  in_ratio n [-1; -1]%Z k1 (calc_ricci m) m c w (calc_ricci m') m' c' w' /\
  in_ratio n [] b (calc_ricci_scalar m) m c w (calc_ricci_scalar m') m' c' w' /\
  in_ratio n [-1; -1]%Z k1 (calc_einstein m) m c w (calc_einstein m') m' c' w'.
Proof. exact (scaled_computed n xs m c m' c' name name' g gi g' gi' a b w w'). Qed.

(** C190.  If m' is a times m, where a may depend on the coordinates, the Weyl tensor that is
    computed (all indices lowered) is a times that of m.  It vanishes if m is a function times a
    metric with constant components. *)
Theorem C190_weyl_of_conformal_metrics m c m' c' name name' g gi g' gi' a b w w' :
  metric_session w n m c name xs g gi -> known_results n xs g gi w m c name ->
  metric_session w' n m' c' name' xs g' gi' -> known_results n xs g' gi' w' m' c' name' ->
  times_metric n a g g' -> keq (kmul a b) k1 -> 3 <= n ->
  (forall j, In j (insts w) -> named w (name ++ " Ricci Tensor") j -> ~ used w j) ->
  (forall j, In j (insts w') -> named w' (name' ++ " Ricci Tensor") j -> ~ used w' j) ->
  in_ratio n [-1; -1; -1; -1]%Z a (calc_weyl m) m c w (calc_weyl m') m' c' w'.
Proof. exact (conf_computed n xs m c m' c' name name' g gi g' gi' a b w w'). Qed.
Theorem C190_conformally_flat m c name g gi h a b w :
  metric_session w n m c name xs g gi -> known_results n xs g gi w m c name ->
  times_metric n a h g -> keq (kmul a b) k1 -> (forall i j, i < n -> j < n -> constant xs (h i j)) -> 3 <= n ->
  (forall j, In j (insts w) -> named w (name ++ " Ricci Tensor") j -> ~ used w j) ->
  exists t w', calc_weyl m w = (Ok t, w') /\ tensor_value w' n m c t [-1; -1; -1; -1]%Z (fun _ => k0).
Proof. exact (flat_weyl n xs m c name g gi h a b w). Qed.
End Scale.
Print Assumptions C189_rescaled_metric.
Print Assumptions C190_weyl_of_conformal_metrics.
Print Assumptions C190_conformally_flat.

(** dx^2 + exp(2x) dy^2 + dz^2 - dt^2, and four times this metric.  The Ricci scalar of the first
    is -2. *)
Example rescaled_sessions_met :
  (metric_session prod_w 4 1 0 "g" four (emat prod_g) (emat prod_gi) /\ known_results 4 four (emat prod_g) (emat prod_gi) prod_w 1 0 "g") /\
  (metric_session prod4_w 4 1 0 "h" four (emat prod4_g) (emat prod4_gi) /\ known_results 4 four (emat prod4_g) (emat prod4_gi) prod4_w 1 0 "h").
Proof. exact (conj prod_session prod4_session). Qed.
Example rescaled_factor_met :
  @times_metric ExpOps 4 (PC 4%Q) (emat prod_g) (emat prod4_g) /\ @keq ExpOps (@kmul ExpOps (PC 4%Q) (PC (1 # 4)%Q)) (@k1 ExpOps) /\
  @constant ExpOps four (PC 4%Q).
Proof. exact prod4_times. Qed.
Example rescaled_curved :
  @keq ExpOps (@Sca ExpOps 4 four (emat prod_g) (emat prod_gi)) (PC (-2)%Q) /\ ~ @keq ExpOps (PC (-2)%Q) (@k0 ExpOps) /\
  ~ @keq ExpOps (@Wey ExpOps 4 four (emat prod_g) (emat prod_gi) 2 3 2 3) (@k0 ExpOps).
Proof. exact prod_curved. Qed.
(** The same metric and exp(2z) times it; the Weyl tensor is not zero. *)
Example conformal_session_met :
  metric_session conf_w 4 1 0 "k" four (emat conf_g) (emat conf_gi) /\ known_results 4 four (emat conf_g) (emat conf_gi) conf_w 1 0 "k".
Proof. exact conf_session. Qed.
Example conformal_factor_met :
  @times_metric ExpOps 4 (sq e_z) (emat prod_g) (emat conf_g) /\ @keq ExpOps (@kmul ExpOps (sq e_z) (sq i_z)) (@k1 ExpOps).
Proof. exact conf_times. Qed.
Example conformal_names_met :
  (forall j, In j (insts prod_w) -> named prod_w ("g" ++ " Ricci Tensor") j -> ~ used prod_w j) /\
  (forall j, In j (insts conf_w) -> named conf_w ("k" ++ " Ricci Tensor") j -> ~ used conf_w j) /\
  (forall j, In j (insts cflat_w) -> named cflat_w ("c" ++ " Ricci Tensor") j -> ~ used cflat_w j).
Proof. exact four_no_ricci. Qed.
(** exp(2x) (dx^2 + dy^2 + dz^2 - dt^2); its Ricci scalar is not zero. *)
Example conformally_flat_session_met :
  metric_session cflat_w 4 1 0 "c" four (emat cflat_g) (emat cflat_gi) /\ known_results 4 four (emat cflat_g) (emat cflat_gi) cflat_w 1 0 "c".
Proof. exact cflat_session. Qed.
Example conformally_flat_factor_met :
  @times_metric ExpOps 4 (sq e_x) (emat cflat_h) (emat cflat_g) /\ @keq ExpOps (@kmul ExpOps (sq e_x) (sq i_x)) (@k1 ExpOps) /\
  forall i j, i < 4 -> j < 4 -> @constant ExpOps four (@aget ExpOps cflat_h [i; j]).
Proof. exact cflat_times. Qed.
Example conformally_flat_curved : ~ @keq ExpOps (@Sca ExpOps 4 four (emat cflat_g) (emat cflat_gi)) (@k0 ExpOps).
Proof. exact cflat_curved. Qed.
