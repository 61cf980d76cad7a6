(** Ricci tensor and scalar of conformally related metrics. *)
From Verif Require Import Alg Alg_P Arr Arr_P Spec Act_P TensorM WorldM SpecWorld CalcM SpecCalc CurvM SpecCurv SpecDim SpecConst SpecScale SpecLight Curv_P Curv2_P CurvDim_P CurvDim2_P CurvConst_P Scale_P Conf_P.
Local Open Scope K_scope.

Section Conf.
Context {A : AlgOps} {L : AlgLaws A} {D : DiffLaws A}.
Add Ring Kring : kring (setoid keq_equiv kring_ext).
Variables (n : nat) (xs : list string) (g gi g' gi' : nat -> nat -> K) (a b : K).
Hypothesis Hs : symmetric_fun n g.
Hypothesis Hi : inverse_fun n g gi.
Hypothesis Hs' : symmetric_fun n g'.
Hypothesis Hi' : inverse_fun n g' gi'.
Hypothesis Ha : times_metric n a g g'.
Hypothesis Hab : a * b == k1.
Notation x := (cx xs).
Notation e := (kinvn 2).
Notation H := (hessian n xs g gi a).
Notation N := (gradient_square n xs gi a).
Notation W := (wave_operator n xs g gi a).
Notation d i := (kdiff (nth i xs ""%string) a).
Notation B := (B n x g gi a b).

Lemma hh_gam i j : (i < n)%nat -> (j < n)%nat -> hh n x g gi a i j == nsum n (fun l => Gam n xs g gi l i j * d l).
Proof.
  intros Bi Bj. unfold hh. rewrite nsum_swap. apply nsum_ext. intros k Bk. unfold Gam, christoffel_of. rewrite <- nsum_scale_r. apply nsum_ext. intros l Bl.
  unfold Gl, d1. change (nth k xs ""%string) with (x k). rewrite (gi_sym n g gi Hs Hi l k Bl Bk). ring.
Qed.
Lemma B_hess i j : (i < n)%nat -> (j < n)%nat -> B i j == (e * e + e * e + e * e) * b * (d i * d j) - e * H i j - e * e * e * b * N * g i j.
Proof.
  intros Bi Bj. unfold Conf_P.B. rewrite (hh_gam i j Bi Bj). change (nn n x gi a) with N. unfold hessian, d1, d2, cx. ring.
Qed.
Lemma tb_hess : tb n x g gi a b == (e * e + e * e + e * e) * b * N - e * W - e * e * e * b * N * knat n.
Proof.
  rewrite <- (trace_metric n g gi Hs Hi). unfold tb, wave_operator. unfold gradient_square at 1. unfold trace_of.
  rewrite <- !nsum_scale, <- !nsum_sub. apply nsum_ext. intros i Bi. rewrite <- !nsum_scale, <- !nsum_sub. apply nsum_ext. intros j Bj.
  rewrite (B_hess i j Bi Bj). ring.
Qed.
Lemma e4 : (e + e) * (e + e) == k1 /\ e + e == k1.
Proof. assert (X : e + e == k1) by (transitivity (e * (k1 + k1)); [ring|apply half_double]). split; [rewrite X; ring|exact X]. Qed.
Lemma inv' i j : (i < n)%nat -> (j < n)%nat -> gi' i j == b * gi i j.
Proof. intros. apply (inverse_times n g gi g' gi' a b Hi Hi' Ha Hab); assumption. Qed.

Lemma ricci_value i j : (i < n)%nat -> (j < n)%nat ->
  knat 4 * Ric n xs g' gi' i j == knat 4 * Ric n xs g gi i j + (knat n - knat 2) * (knat 3 * (b * b * (d i * d j)) - knat 2 * (b * H i j))
    - (knat 2 * (b * W) + (knat n - knat 4) * (b * b * N)) * g i j.
Proof.
  intros Bi Bj. assert (E := ricci_conf n x g gi g' gi' a b Hs Hi Hs' Hi' Ha inv' Hab i j Bi Bj).
  change (Ric n xs g' gi' i j) with (ricci_of n (riemann_of n x (christoffel_of n x g' gi')) i j). rewrite E.
  change (Ric n xs g gi i j) with (ricci_of n (riemann_of n x (christoffel_of n x g gi)) i j).
  rewrite (B_hess i j Bi Bj), tb_hess. destruct e4 as [_ E2]. cbn [knat].
  assert (Hz : forall X Y z, X == Y + (e + e - k1) * z -> X == Y) by (intros X Y z ->; rewrite E2; ring).
  set (Z := knat n). set (h := H i j). set (dd := d i * d j). set (G := g i j). set (R0 := ricci_of _ _ i j). clearbody Z h dd G R0. clear E.
  generalize (kinvn 2), E2. intros q Q.
  transitivity (R0 + R0 + R0 + R0 + ((Z - (k1 + k1)) * ((q + q) * (q + q) * (b * b * dd) + (q + q) * (q + q) * (b * b * dd) + (q + q) * (q + q) * (b * b * dd)
    - (q + q) * (b * h) - (q + q) * (b * h)) - ((q + q) * (b * W) + (q + q) * (b * W)) * G
    - (q + q) * (q + q) * q * (Z - (k1 + k1)) * (b * b * N) * G + ((q + q) * (q + q) * (k1 + k1 + k1) - (q + q) * (q + q) * q * Z) * (b * b * N) * G)); [ring|].
  rewrite Q.
  transitivity (R0 + R0 + R0 + R0 + ((Z - (k1 + k1)) * ((b * b * dd) + (b * b * dd) + (b * b * dd)
    - (b * h) - (b * h)) - ((b * W) + (b * W)) * G - (q + q) * (Z - k1) * (b * b * N) * G + (k1 + k1 + k1) * (b * b * N) * G)); [ring|].
  rewrite Q. ring.
Qed.
Lemma scalar_value :
  knat 4 * Sca n xs g' gi' == knat 4 * (b * Sca n xs g gi)
    - (knat n - k1) * (knat 4 * (b * b * W) + (knat n - knat 6) * (b * b * b * N)).
Proof.
  assert (E := scalar_conf n x g gi g' gi' a b Hs Hi Hs' Hi' Ha inv' Hab).
  change (Sca n xs g' gi') with (trace_of n gi' (ricci_of n (riemann_of n x (christoffel_of n x g' gi')))). rewrite E.
  change (Sca n xs g gi) with (trace_of n gi (ricci_of n (riemann_of n x (christoffel_of n x g gi)))).
  rewrite tb_hess. destruct e4 as [_ E2]. cbn [knat].
  set (Z := knat n). set (R0 := trace_of n gi (ricci_of _ _)). clearbody Z R0. clear E.
  generalize (kinvn 2), E2. intros q Q.
  transitivity ((k1 + k1 + (k1 + k1)) * (b * R0) + (Z - k1) * ((q + q) * (q + q) * (b * b * b * N) * (k1 + k1 + (k1 + k1) + (k1 + k1))
     - (q + q) * (k1 + k1 + (k1 + k1)) * (b * b * W) - (q + q) * (q + q) * (q + q) * Z * (b * b * b * N))); [ring|].
  rewrite Q. ring.
Qed.
End Conf.

Section Computed.
Context {A : AlgOps} {L : AlgLaws A} {D : DiffLaws A}.
Variables (n : nat) (xs : list string) (m c m' c' : oid) (name name' : string) (g gi g' gi' : nat -> nat -> K) (a b : K) (w w' : world).
Hypothesis HS : metric_session w n m c name xs g gi.
Hypothesis HK : known_results n xs g gi w m c name.
Hypothesis HS' : metric_session w' n m' c' name' xs g' gi'.
Hypothesis HK' : known_results n xs g' gi' w' m' c' name'.
Hypothesis Ha : times_metric n a g g'.
Hypothesis Hab : keq (kmul a b) k1.
Lemma conf_ricci : exists f w1 f' w1',
  computes (calc_ricci m) n m c [-1; -1]%Z w f w1 /\ computes (calc_ricci m') n m' c' [-1; -1]%Z w' f' w1' /\
  forall i j, (i < n)%nat -> (j < n)%nat ->
  knat 4 * f' [i; j] == knat 4 * f [i; j]
    + (knat n - knat 2) * (knat 3 * (b * b * (kdiff (nth i xs ""%string) a * kdiff (nth j xs ""%string) a)) - knat 2 * (b * hessian n xs g gi a i j))
    - (knat 2 * (b * wave_operator n xs g gi a) + (knat n - knat 4) * (b * b * gradient_square n xs gi a)) * g i j.
Proof.
  destruct (session_metric n m c name xs g gi w HS) as [Hs Hi]. destruct (session_metric n m' c' name' xs g' gi' w' HS') as [Hs' Hi'].
  destruct (ricci_gives n m c name xs g gi w HS HK) as (t & w1 & E1 & _ & V1 & _).
  destruct (ricci_gives n m' c' name' xs g' gi' w' HS' HK') as (u & w2 & E2 & _ & V2 & _).
  eexists _, w1, _, w2. split; [exists t; split; [exact E1|exact V1]|]. split; [exists u; split; [exact E2|exact V2]|].
  intros i j Bi Bj. exact (ricci_value n xs g gi g' gi' a b Hs Hi Hs' Hi' Ha Hab i j Bi Bj).
Qed.
Lemma conf_scalar : exists f w1 f' w1',
  computes (calc_ricci_scalar m) n m c [] w f w1 /\ computes (calc_ricci_scalar m') n m' c' [] w' f' w1' /\
  knat 4 * f' [] == knat 4 * (b * f [])
    - (knat n - k1) * (knat 4 * (b * b * wave_operator n xs g gi a) + (knat n - knat 6) * (b * b * b * gradient_square n xs gi a)).
Proof.
  destruct (session_metric n m c name xs g gi w HS) as [Hs Hi]. destruct (session_metric n m' c' name' xs g' gi' w' HS') as [Hs' Hi'].
  destruct (scalar_gives n m c name xs g gi w HS HK) as (t & w1 & E1 & _ & V1 & _).
  destruct (scalar_gives n m' c' name' xs g' gi' w' HS' HK') as (u & w2 & E2 & _ & V2 & _).
  eexists _, w1, _, w2. split; [exists t; split; [exact E1|exact V1]|]. split; [exists u; split; [exact E2|exact V2]|].
  exact (scalar_value n xs g gi g' gi' a b Hs Hi Hs' Hi' Ha Hab).
Qed.
End Computed.
