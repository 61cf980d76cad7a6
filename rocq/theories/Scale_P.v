(** Curvature of a metric multiplied with a constant. *)
From Verif Require Import Alg Alg_P Arr Arr_P Spec Act_P TensorM WorldM SpecWorld CalcM SpecCalc CurvM SpecCurv SpecDim SpecConst SpecScale Curv_P Curv2_P CurvDim_P CurvDim2_P CurvConst_P.
Local Open Scope K_scope.

Section Scale.
Context {A : AlgOps} {L : AlgLaws A} {D : DiffLaws A}.
Add Ring Kring : kring (setoid keq_equiv kring_ext).
Variables (n : nat) (xs : list string) (g gi g' gi' : nat -> nat -> K) (a b : K).
Hypothesis Hx : length xs = n.
Hypothesis Hs : symmetric_fun n g.
Hypothesis Hi : inverse_fun n g gi.
Hypothesis Hi' : inverse_fun n g' gi'.
Hypothesis Ha : times_metric n a g g'.
Hypothesis Hab : a * b == k1.

Lemma gT i j : (i < n)%nat -> (j < n)%nat -> g' i j == a * g i j.
Proof. apply Ha. Qed.
Lemma inverse_times i j : (i < n)%nat -> (j < n)%nat -> gi' i j == b * gi i j.
Proof.
  intros Bi Bj.
  (* gi' = gi' (g gi) = b gi' g' gi = b gi *)
  transitivity (nsum n (fun k => gi' i k * kdelta k j)); [symmetry; apply (nsum_delta_r n j (fun k => gi' i k) Bj)|].
  transitivity (nsum n (fun k => nsum n (fun l => b * (gi' i k * g' k l * gi l j)))).
  { apply nsum_ext. intros k Hk. rewrite <- (proj1 Hi k j Hk Bj), <- nsum_scale. apply nsum_ext. intros l Hl. rewrite (gT k l Hk Hl).
    transitivity (a * b * (gi' i k * (g k l * gi l j))); [rewrite Hab; ring|ring]. }
  rewrite nsum_swap. transitivity (nsum n (fun l => kdelta i l * (b * gi l j))).
  { apply nsum_ext. intros l Hl. rewrite <- (proj2 Hi' i l Bi Hl), <- nsum_scale_r. apply nsum_ext. intros k Hk. ring. }
  apply (nsum_delta_l n i (fun l => b * gi l j) Bi).
Qed.

Lemma in_cx k : (k < n)%nat -> In (cx xs k) xs.
Proof. intros H. unfold cx. apply nth_In. lia. Qed.

Hypothesis Hc : constant xs a.

Lemma diff_times k i j : (k < n)%nat -> (i < n)%nat -> (j < n)%nat -> kdiff (cx xs k) (g' i j) == a * kdiff (cx xs k) (g i j).
Proof. intros Hk Bi Bj. rewrite (gT i j Bi Bj), kdiff_mul, (Hc _ (in_cx k Hk)). ring. Qed.

Lemma gam_same i j k : (i < n)%nat -> (j < n)%nat -> (k < n)%nat -> Gam n xs g' gi' i j k == Gam n xs g gi i j k.
Proof.
  intros Bi Bj Bk. unfold Gam, christoffel_of. apply nsum_ext. intros l Hl. rewrite !diff_times, inverse_times by assumption.
  transitivity (a * b * (kinvn 2 * (gi i l * (kdiff (cx xs j) (g l k) + kdiff (cx xs k) (g j l) - kdiff (cx xs l) (g j k))))); [ring|]. rewrite Hab. ring.
Qed.
Lemma rie_same r s m v : (r < n)%nat -> (s < n)%nat -> (m < n)%nat -> (v < n)%nat -> Rie n xs g' gi' r s m v == Rie n xs g gi r s m v.
Proof.
  intros Br Bs Bm Bv. unfold Rie, riemann_of. apply ksub_proper; [apply kadd_proper; [apply ksub_proper; apply kdiff_proper, gam_same; assumption|]|];
    apply nsum_ext; intros l Hl; rewrite !gam_same by assumption; reflexivity.
Qed.
Lemma ric_same i j : (i < n)%nat -> (j < n)%nat -> Ric n xs g' gi' i j == Ric n xs g gi i j.
Proof. intros Bi Bj. unfold Ric, ricci_of. apply nsum_ext. intros l Hl. apply rie_same; assumption. Qed.
Lemma sca_times : Sca n xs g' gi' == b * Sca n xs g gi.
Proof.
  unfold Sca, trace_of. rewrite <- nsum_scale. apply nsum_ext. intros i Bi. rewrite <- nsum_scale. apply nsum_ext. intros j Bj.
  rewrite inverse_times, ric_same by assumption. ring.
Qed.
Lemma ein_same i j : (i < n)%nat -> (j < n)%nat -> Ein n xs g' gi' i j == Ein n xs g gi i j.
Proof.
  intros Bi Bj. unfold Ein, einstein_of. rewrite ric_same, sca_times, (gT i j Bi Bj) by assumption.
  apply ksub_proper; [reflexivity|]. transitivity (a * b * (kinvn 2 * Sca n xs g gi * g i j)); [ring|]. rewrite Hab. ring.
Qed.
Lemma wey_times i k l m : (i < n)%nat -> (k < n)%nat -> (l < n)%nat -> (m < n)%nat -> Wey n xs g' gi' i k l m == a * Wey n xs g gi i k l m.
Proof.
  intros Bi Bk Bl Bm. unfold Wey, weyl_of.
  assert (E : lowered n g' (Rie n xs g' gi') i k l m == a * lowered n g (Rie n xs g gi) i k l m).
  { unfold lowered. rewrite <- nsum_scale. apply nsum_ext. intros p Hp. rewrite rie_same, (gT i p Bi Hp) by assumption. ring. }
  rewrite E, sca_times, !ric_same, !gT by assumption.
  transitivity (a * lowered n g (Rie n xs g gi) i k l m +
    a * (kinvn (n - 2) * (Ric n xs g gi i m * g k l - Ric n xs g gi i l * g k m + Ric n xs g gi k l * g i m - Ric n xs g gi k m * g i l)) +
    (a * b) * a * (kinvn ((n - 2) * (n - 1)) * (Sca n xs g gi * (g i l * g k m - g i m * g k l)))); [ring|]. rewrite Hab. ring.
Qed.
End Scale.

Section Computed.
Context {A : AlgOps} {L : AlgLaws A} {D : DiffLaws A}.
Add Ring Kring2 : kring (setoid keq_equiv kring_ext).
Local Open Scope nat_scope.
Lemma range3 n idx : in_range n 3 idx -> nth 0 idx 0 < n /\ nth 1 idx 0 < n /\ nth 2 idx 0 < n.
Proof. intros [Hl Hf]. destruct idx as [|i [|j [|k [|]]]]; try discriminate Hl. inversion Hf as [|? ? H1 H2]; subst. inversion H2 as [|? ? H3 H4]; subst. inversion H4; subst. auto. Qed.
Variables (n : nat) (xs : list string) (m c m' c' : oid) (name name' : string) (g gi g' gi' : nat -> nat -> K) (a b : K) (w w' : world).
Hypothesis HS : metric_session w n m c name xs g gi.
Hypothesis HK : known_results n xs g gi w m c name.
Hypothesis HS' : metric_session w' n m' c' name' xs g' gi'.
Hypothesis HK' : known_results n xs g' gi' w' m' c' name'.
Hypothesis Ha : times_metric n a g g'.
Hypothesis Hab : keq (kmul a b) k1.
Hypothesis Hc : constant xs a.

Lemma scale_length : length xs = n.
Proof. destruct HS as (_ & _ & _ & _ & _ & _ & _ & (oc & _ & _ & H) & _). exact H. Qed.

Lemma scaled_computed :
  in_ratio n [1; -1; -1]%Z k1 (calc_christoffel m) m c w (calc_christoffel m') m' c' w' /\
  in_ratio n [1; -1; -1; -1]%Z k1 (calc_riemann m) m c w (calc_riemann m') m' c' w' /\
  in_ratio n [-1; -1]%Z k1 (calc_ricci m) m c w (calc_ricci m') m' c' w' /\
  in_ratio n [] b (calc_ricci_scalar m) m c w (calc_ricci_scalar m') m' c' w' /\
  in_ratio n [-1; -1]%Z k1 (calc_einstein m) m c w (calc_einstein m') m' c' w'.
Proof.
  destruct (session_metric n m c name xs g gi w HS) as [Hs Hi]. destruct (session_metric n m' c' name' xs g' gi' w' HS') as [Hs' Hi'].
  pose proof scale_length as Hx. split; [|split; [|split; [|split]]].
  - destruct (christoffel_gives n m c name xs g gi w HS HK) as (t & w1 & E1 & _ & V1 & _).
    destruct (christoffel_gives n m' c' name' xs g' gi' w' HS' HK') as (u & w2 & E2 & _ & V2 & _).
    exists t, w1, u, w2. eexists. split; [exact E1|]. split; [exact V1|]. split; [exact E2|]. eapply value_ext; [|exact V2].
    intros idx R. destruct (range3 n idx R) as (B0 & B1 & B2). unfold at3. rewrite (gam_same n xs g gi g' gi' a b Hx Hi Hi' Ha Hab Hc) by assumption. ring.
  - destruct (riemann_gives n m c name xs g gi w HS HK) as (t & w1 & E1 & _ & V1 & _).
    destruct (riemann_gives n m' c' name' xs g' gi' w' HS' HK') as (u & w2 & E2 & _ & V2 & _).
    exists t, w1, u, w2. eexists. split; [exact E1|]. split; [exact V1|]. split; [exact E2|]. eapply value_ext; [|exact V2].
    intros idx R. destruct (range4 n idx R) as (B0 & B1 & B2 & B3). unfold at4. rewrite (rie_same n xs g gi g' gi' a b Hx Hi Hi' Ha Hab Hc) by assumption. ring.
  - destruct (ricci_gives n m c name xs g gi w HS HK) as (t & w1 & E1 & _ & V1 & _).
    destruct (ricci_gives n m' c' name' xs g' gi' w' HS' HK') as (u & w2 & E2 & _ & V2 & _).
    exists t, w1, u, w2. eexists. split; [exact E1|]. split; [exact V1|]. split; [exact E2|]. eapply value_ext; [|exact V2].
    intros idx R. destruct (range2 n idx R) as (B0 & B1). unfold at2. rewrite (ric_same n xs g gi g' gi' a b Hx Hi Hi' Ha Hab Hc) by assumption. ring.
  - destruct (scalar_gives n m c name xs g gi w HS HK) as (t & w1 & E1 & _ & V1 & _).
    destruct (scalar_gives n m' c' name' xs g' gi' w' HS' HK') as (u & w2 & E2 & _ & V2 & _).
    exists t, w1, u, w2. eexists. split; [exact E1|]. split; [exact V1|]. split; [exact E2|]. eapply value_ext; [|exact V2].
    intros idx R. apply (sca_times n xs g gi g' gi' a b Hx Hi Hi' Ha Hab Hc).
  - destruct (einstein_gives n m c name xs g gi w HS HK) as (t & w1 & E1 & _ & V1 & _).
    destruct (einstein_gives n m' c' name' xs g' gi' w' HS' HK') as (u & w2 & E2 & _ & V2 & _).
    exists t, w1, u, w2. eexists. split; [exact E1|]. split; [exact V1|]. split; [exact E2|]. eapply value_ext; [|exact V2].
    intros idx R. destruct (range2 n idx R) as (B0 & B1). unfold at2. rewrite (ein_same n xs g gi g' gi' a b Hx Hi Hi' Ha Hab Hc) by assumption. ring.
Qed.
End Computed.
