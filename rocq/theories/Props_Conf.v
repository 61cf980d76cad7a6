(** The Ricci curvature of metrics that differ by a factor: C212. *)
From Coq Require Import QArith.
From Verif Require Import Alg Arr Spec TensorM WorldM SpecWorld CalcM SpecCalc CurvM SpecCurv SpecScale SpecLight ConfRicci_P Inst InstExp ExWorld Witness_Volume_P Witness_Scale_P Witness_Light_P.
Local Open Scope nat_scope.

Section Conf.
Context {A : AlgOps} {L : AlgLaws A} {D : DiffLaws A}.
Variables (n : nat) (xs : list string) (m c m' c' : oid) (name name' : string) (g gi g' gi' : nat -> nat -> K) (a b : K) (w w' : world).

(** C212.  Let m' be a times m in the same coordinates and b = 1/a.  Four times the Ricci tensor that
    is computed for m' is four times the one for m and
    (n - 2) (3 b^2 (d_i a) (d_j a) - 2 b D_i D_j a) - (2 b D^2 a + (n - 4) b^2 |da|^2) g_ij. *)
Theorem C212_ricci_of_conformal_metrics :
  metric_session w n m c name xs g gi -> known_results n xs g gi w m c name ->
  metric_session w' n m' c' name' xs g' gi' -> known_results n xs g' gi' w' m' c' name' ->
  times_metric n a g g' -> keq (kmul a b) k1 ->
  exists f w1 f' w1',
    computes (calc_ricci m) n m c [-1; -1]%Z w f w1 /\ computes (calc_ricci m') n m' c' [-1; -1]%Z w' f' w1' /\
    forall i j, i < n -> j < n ->
    keq (kmul (knat 4) (f' [i; j]))
      (ksub (kadd (kmul (knat 4) (f [i; j]))
         (kmul (ksub (knat n) (knat 2))
           (ksub (kmul (knat 3) (kmul (kmul b b) (kmul (kdiff (nth i xs ""%string) a) (kdiff (nth j xs ""%string) a))))
                 (kmul (knat 2) (kmul b (hessian n xs g gi a i j))))))
         (kmul (kadd (kmul (knat 2) (kmul b (wave_operator n xs g gi a)))
                     (kmul (ksub (knat n) (knat 4)) (kmul (kmul b b) (gradient_square n xs gi a)))) (g i j))).
Proof. exact (conf_ricci n xs m c m' c' name name' g gi g' gi' a b w w'). Qed.
(** Four times the Ricci scalar is 4 b R - (n - 1) (4 b^2 D^2 a + (n - 6) b^3 |da|^2). *)
Theorem C212_scalar_of_conformal_metrics :
  metric_session w n m c name xs g gi -> known_results n xs g gi w m c name ->
  metric_session w' n m' c' name' xs g' gi' -> known_results n xs g' gi' w' m' c' name' ->
  times_metric n a g g' -> keq (kmul a b) k1 ->
  exists f w1 f' w1',
    computes (calc_ricci_scalar m) n m c [] w f w1 /\ computes (calc_ricci_scalar m') n m' c' [] w' f' w1' /\
    keq (kmul (knat 4) (f' []))
      (ksub (kmul (knat 4) (kmul b (f [])))
         (kmul (ksub (knat n) k1)
           (kadd (kmul (knat 4) (kmul (kmul b b) (wave_operator n xs g gi a)))
                 (kmul (ksub (knat n) (knat 6)) (kmul (kmul (kmul b b) b) (gradient_square n xs gi a)))))).
Proof. exact (conf_scalar n xs m c m' c' name name' g gi g' gi' a b w w'). Qed.
End Conf.
Print Assumptions C212_ricci_of_conformal_metrics.
Print Assumptions C212_scalar_of_conformal_metrics.

(** dx^2 + exp(2x) dy^2 + dz^2 - dt^2 and exp(2z) times this metric. *)
Example conf_ricci_sessions_met :
  (metric_session prod_w 4 1 0 "g" four (emat prod_g) (emat prod_gi) /\ known_results 4 four (emat prod_g) (emat prod_gi) prod_w 1 0 "g") /\
  (metric_session conf_w 4 1 0 "k" four (emat conf_g) (emat conf_gi) /\ known_results 4 four (emat conf_g) (emat conf_gi) conf_w 1 0 "k").
Proof. exact (conj prod_session conf_session). Qed.
Example conf_ricci_factor_met :
  @times_metric ExpOps 4 (sq e_z) (emat prod_g) (emat conf_g) /\ @keq ExpOps (@kmul ExpOps (sq e_z) (sq i_z)) (@k1 ExpOps).
Proof. exact conf_times. Qed.
(** 4 (-8 b) = 4 b (-2) - 3 (4 b^2 4 a - 2 b^3 4 a^2) *)
Example conf_ricci_values :
  @keq ExpOps (@wave_operator ExpOps 4 four (emat prod_g) (emat prod_gi) (sq e_z)) (PMul (PC 4%Q) (sq e_z)) /\
  @keq ExpOps (@gradient_square ExpOps 4 four (emat prod_gi) (sq e_z)) (PMul (PC 4%Q) (sq (sq e_z))) /\
  @keq ExpOps (@Sca ExpOps 4 four (emat prod_g) (emat prod_gi)) (PC (-2)%Q) /\
  @keq ExpOps (@Sca ExpOps 4 four (emat conf_g) (emat conf_gi)) (PMul (PC (-8)%Q) (sq i_z)).
Proof. exact conf_second. Qed.
