(** Geodesics of metrics that differ by a factor: C210. *)
From Coq Require Import QArith.
From Verif Require Import Alg Arr Spec TensorM WorldM SpecWorld CalcM SpecCalc CurvM SpecCurv SpecScale GeodM SpecGeod SpecLight ScaleGeod_P Inst InstExp Ex ExWorld Witness_Volume_P Witness_Scale_P Witness_Charge_P Witness_Light_P.
Local Open Scope nat_scope.

Section Light.
Context {A : AlgOps} {L : AlgLaws A} {D : DiffLaws A} {C : CleanLaws A}.
Variables (n : nat) (xs : list string) (m c m' c' : oid) (name name' : string) (g gi g' gi' : nat -> nat -> K) (a b : K) (w w' : world).
Variables coords coords' : option oid.

(** C210.  Let m' be a times m in the same coordinates.  The Lagrangian that is computed is a times
    that of m.  The geodesic equations that are computed from the Christoffel symbols are, up to
    invertible factors, those of m and b (v^i d_i a) v^s - 1/2 b (g^sl d_l a) L, where b = 1/a and L
    is the Lagrangian of m.  So for L = 0 they differ by a multiple of the velocity only. *)
Theorem C210_lagrangians_of_conformal_metrics :
  metric_session w n m c name xs g gi -> known_results n xs g gi w m c name -> known_curves n xs g gi w m c name ->
  metric_session w' n m' c' name' xs g' gi' -> known_results n xs g' gi' w' m' c' name' -> known_curves n xs g' gi' w' m' c' name' ->
  coords = None \/ coords = Some c -> coords' = None \/ coords' = Some c' -> times_metric n a g g' ->
  exists h w1 h' w1',
    computes (calc_lagrangian m coords) n m c [] w h w1 /\ computes (calc_lagrangian m' coords') n m' c' [] w' h' w1' /\
    keq (h' []) (kmul a (h [])).
Proof. exact (conf_lagrangian n xs m c m' c' name name' g gi g' gi' a w w' coords coords'). Qed.
Theorem C210_geodesics_of_conformal_metrics :
  metric_session w n m c name xs g gi -> known_results n xs g gi w m c name -> known_curves n xs g gi w m c name ->
  metric_session w' n m' c' name' xs g' gi' -> known_results n xs g' gi' w' m' c' name' -> known_curves n xs g' gi' w' m' c' name' ->
  coords = None \/ coords = Some c -> coords' = None \/ coords' = Some c' -> times_metric n a g g' -> keq (kmul a b) k1 ->
  exists l w1 f w2 f' w1' r r',
    computes (calc_lagrangian m coords) n m c [] w l w1 /\ computes (calc_geodesic_christoffel m coords) n m c [1]%Z w1 f w2 /\
    computes (calc_geodesic_christoffel m' coords') n m' c' [1]%Z w' f' w1' /\ invertible n r /\ invertible n r' /\
    forall s, s < n -> keq (kmul (r' s) (f' [s])) (kadd (kmul (r s) (f [s]))
      (ksub (kmul b (kmul (change_along n xs a) (velocity (nth s xs ""%string))))
            (kmul (kmul (kinvn 2) b) (kmul (gradient n xs gi a s) (l []))))).
Proof. exact (conf_geodesics n xs m c m' c' name name' g gi g' gi' a b w w' coords coords'). Qed.
(** With the first coordinate as the parameter the multiple of the velocity goes away: the equations
    differ by a multiple of the Lagrangian, and they are equivalent for light. *)
Theorem C210_time_geodesics_of_conformal_metrics :
  metric_session w n m c name xs g gi -> known_results n xs g gi w m c name -> known_curves n xs g gi w m c name ->
  metric_session w' n m' c' name' xs g' gi' -> known_results n xs g' gi' w' m' c' name' -> known_curves n xs g' gi' w' m' c' name' ->
  coords = None \/ coords = Some c -> coords' = None \/ coords' = Some c' -> times_metric n a g g' -> keq (kmul a b) k1 ->
  exists f w1 f' w1' r r',
    computes (calc_geodesic_time m coords) n m c [1]%Z w f w1 /\
    computes (calc_geodesic_time m' coords') n m' c' [1]%Z w' f' w1' /\ invertible n r /\ invertible n r' /\
    forall s, s < n -> keq (kmul (r' s) (f' [s])) (ksub (kmul (r s) (f [s]))
      (kmul (kmul (kinvn 2) b) (kmul (ksub (gradient n xs gi a s) (kmul (tvel xs s) (gradient n xs gi a 0)))
        (lagrangian_of n g (tvel xs))))).
Proof. exact (conf_time n xs m c m' c' name name' g gi g' gi' a b w w' coords coords'). Qed.
(** If a is constant, the geodesic equations are the same up to invertible factors, whichever way
    they are computed. *)
Theorem C210_geodesics_of_rescaled_metric :
  metric_session w n m c name xs g gi -> known_results n xs g gi w m c name -> known_curves n xs g gi w m c name ->
  metric_session w' n m' c' name' xs g' gi' -> known_results n xs g' gi' w' m' c' name' -> known_curves n xs g' gi' w' m' c' name' ->
  coords = None \/ coords = Some c -> coords' = None \/ coords' = Some c' -> times_metric n a g g' -> keq (kmul a b) k1 -> constant xs a ->
  exists f w1 f' w1',
    computes (calc_geodesic_christoffel m coords) n m c [1]%Z w f w1 /\ computes (calc_geodesic_christoffel m' coords') n m' c' [1]%Z w' f' w1' /\
    forall s, s < n -> unit_multiple (f' [s]) (f [s]).
Proof. exact (scaled_geodesics n xs m c m' c' name name' g gi g' gi' a b w w' coords coords'). Qed.
Theorem C210_time_geodesics_of_rescaled_metric :
  metric_session w n m c name xs g gi -> known_results n xs g gi w m c name -> known_curves n xs g gi w m c name ->
  metric_session w' n m' c' name' xs g' gi' -> known_results n xs g' gi' w' m' c' name' -> known_curves n xs g' gi' w' m' c' name' ->
  coords = None \/ coords = Some c -> coords' = None \/ coords' = Some c' -> times_metric n a g g' -> keq (kmul a b) k1 -> constant xs a ->
  exists f w1 f' w1',
    computes (calc_geodesic_time m coords) n m c [1]%Z w f w1 /\ computes (calc_geodesic_time m' coords') n m' c' [1]%Z w' f' w1' /\
    forall s, s < n -> unit_multiple (f' [s]) (f [s]).
Proof. exact (scaled_time n xs m c m' c' name name' g gi g' gi' a b w w' coords coords'). Qed.
Theorem C210_lagrangian_geodesics_of_rescaled_metric {Y : SymLaws A} :
  metric_session w n m c name xs g gi -> known_results n xs g gi w m c name -> known_curves n xs g gi w m c name ->
  metric_session w' n m' c' name' xs g' gi' -> known_results n xs g' gi' w' m' c' name' -> known_curves n xs g' gi' w' m' c' name' ->
  coords = None \/ coords = Some c -> coords' = None \/ coords' = Some c' -> times_metric n a g g' -> keq (kmul a b) k1 -> constant xs a ->
  static_metric n xs g -> static_metric n xs g' ->
  exists f w1 f' w1',
    computes (calc_geodesic_lagrangian m coords) n m c [1]%Z w f w1 /\ computes (calc_geodesic_lagrangian m' coords') n m' c' [1]%Z w' f' w1' /\
    forall s, s < n -> unit_multiple (f' [s]) (f [s]).
Proof. exact (fun h1 h2 h3 h4 h5 h6 h7 h8 h9 h10 h11 => scaled_lagrange n xs m c m' c' name name' g gi g' gi' a b w w' coords coords' h1 h2 h3 h4 h5 h6 h7 h8 h9 h10 h11). Qed.
End Light.
Print Assumptions C210_lagrangians_of_conformal_metrics.
Print Assumptions C210_geodesics_of_conformal_metrics.
Print Assumptions C210_time_geodesics_of_conformal_metrics.
Print Assumptions C210_geodesics_of_rescaled_metric.
Print Assumptions C210_time_geodesics_of_rescaled_metric.
Print Assumptions C210_lagrangian_geodesics_of_rescaled_metric.

(** dx^2 + exp(2x) dy^2 + dz^2 - dt^2, four times this metric and exp(2z) times this metric. *)
Example light_sessions_met :
  (metric_session prod_w 4 1 0 "g" four (emat prod_g) (emat prod_gi) /\ known_results 4 four (emat prod_g) (emat prod_gi) prod_w 1 0 "g") /\
  (metric_session prod4_w 4 1 0 "h" four (emat prod4_g) (emat prod4_gi) /\ known_results 4 four (emat prod4_g) (emat prod4_gi) prod4_w 1 0 "h") /\
  (metric_session conf_w 4 1 0 "k" four (emat conf_g) (emat conf_gi) /\ known_results 4 four (emat conf_g) (emat conf_gi) conf_w 1 0 "k").
Proof. exact (conj prod_session (conj prod4_session conf_session)). Qed.
Example light_curves_met :
  known_curves 4 four (emat prod_g) (emat prod_gi) prod_w 1 0 "g" /\
  known_curves 4 four (emat prod4_g) (emat prod4_gi) prod4_w 1 0 "h" /\
  known_curves 4 four (emat conf_g) (emat conf_gi) conf_w 1 0 "k".
Proof. exact four_curves. Qed.
Example light_constant_met :
  @times_metric ExpOps 4 (PC 4%Q) (emat prod_g) (emat prod4_g) /\ @keq ExpOps (@kmul ExpOps (PC 4%Q) (PC (1 # 4)%Q)) (@k1 ExpOps) /\
  @constant ExpOps four (PC 4%Q).
Proof. exact prod4_times. Qed.
Example light_factor_met :
  @times_metric ExpOps 4 (sq e_z) (emat prod_g) (emat conf_g) /\ @keq ExpOps (@kmul ExpOps (sq e_z) (sq i_z)) (@k1 ExpOps).
Proof. exact conf_times. Qed.
Example light_gradient_met :
  @keq ExpOps (@gradient ExpOps 4 four (emat prod_gi) (sq e_z) 2) (PMul (PC 2%Q) (sq e_z)) /\ ~ @keq ExpOps (PMul (PC 2%Q) (sq e_z)) (@k0 ExpOps) /\
  @keq ExpOps (@change_along ExpOps 4 four (sq e_z)) (PMul (PMul (PC 2%Q) (sq e_z)) (PV "zdot")).
Proof. exact conf_gradient. Qed.
Example light_laws_met : @AlgLaws ExpOps /\ @DiffLaws ExpOps /\ @CleanLaws ExpOps.
Proof. exact (conj ExpLaws (conj ExpDiff ExpClean)). Qed.
(** 2 du dv + x^2 du^2 + dx^2 and four times this metric. *)
Example light_waves_met :
  (metric_session wave_w 3 1 0 "g" wave_xs (wmat wave_g) (wmat wave_gi) /\ known_results 3 wave_xs (wmat wave_g) (wmat wave_gi) wave_w 1 0 "g" /\
   known_curves 3 wave_xs (wmat wave_g) (wmat wave_gi) wave_w 1 0 "g" /\ static_metric 3 wave_xs (wmat wave_g)) /\
  (metric_session wave4_w 3 1 0 "h" wave_xs (wmat wave4_g) (wmat wave4_gi) /\ known_results 3 wave_xs (wmat wave4_g) (wmat wave4_gi) wave4_w 1 0 "h" /\
   known_curves 3 wave_xs (wmat wave4_g) (wmat wave4_gi) wave4_w 1 0 "h" /\ static_metric 3 wave_xs (wmat wave4_g)) /\
  (@times_metric PolyOps 3 (pz 4) (wmat wave_g) (wmat wave4_g) /\ @keq PolyOps (@kmul PolyOps (pz 4) (PC (1 # 4)%Q)) (@k1 PolyOps) /\
   @constant PolyOps wave_xs (pz 4)) /\
  ~ keq (Gam 3 wave_xs (wmat wave_g) (wmat wave_gi) 2 0 0) k0.
Proof. exact (conj wave_session (conj wave4_session (conj wave4_times wave4_christoffel))). Qed.
