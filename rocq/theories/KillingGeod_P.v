(** Symmetries of the metric and what is conserved along geodesics. *)
From Verif Require Import Alg Alg_P Spec TensorM CurvRun_P Curv_P GeodM SpecGeod SpecCurve SpecCov SpecDeriv SpecKilling.
From Verif Require Import Arr Arr_P UtilsM WorldM SpecWorld World_P CalcM SpecCalc CurvM SpecCurv Geod2_P Geod3_P Geod4_P Geod5_P GeodCons_P Cov4_P SpecDeriv Killing_P.
Local Open Scope K_scope.

Section Pure.
Context {A : AlgOps} {L : AlgLaws A} {D : DiffLaws A} {Y : SymLaws A}.
Add Ring Kring : kring (setoid keq_equiv kring_ext).
Variables (n : nat) (xs : list string) (g gi : nat -> nat -> K).
Hypothesis Hs : symmetric_fun n g.
Hypothesis Hinv : inverse_fun n g gi.
Hypothesis Lx : length xs = n.
Hypothesis Hst : static_metric n xs g.
Notation x := (cx xs).
Notation v := (cvel xs).
Notation a := (cacc xs).
Notation p := "lambda"%string.
Notation G := (Gam n xs g gi).
Variable h : list nat -> K.
Hypothesis Hp : forall q, (q < n)%nat -> kdiff p (h [q]) == k0.
Hypothesis Hd : forall k q, (k < n)%nat -> (q < n)%nat -> kdiff (dot (x k)) (h [q]) == k0.

Lemma along_rate : rate p xs (nsum n (fun q => h [q] * v q)) ==
  nsum n (fun i => nsum n (fun j => covariant_of n x G [-1]%Z h i [j] * (v i * v j))) + nsum n (fun s => h [s] * Geo n xs g gi s).
Proof.
  set (P := nsum n (fun i => nsum n (fun j => kdiff (x i) (h [j]) * (v i * v j)))).
  set (Q := nsum n (fun s => h [s] * a s)).
  set (R := nsum n (fun s => h [s] * nsum n (fun i => nsum n (fun j => G s i j * (v i * v j))))).
  transitivity (P + Q).
  - rewrite (rate_xs n xs g Lx Hst).
    assert (E0 : kdiff p (nsum n (fun q => h [q] * v q)) == k0).
    { rewrite kdiff_nsum. apply nsum_zero'. intros q Hq. rewrite kdiff_mul, (p_v n xs Lx q), (Hp q Hq). ring. }
    rewrite E0, nsum_add. transitivity (nsum n (fun q => kdiff (x q) (nsum n (fun q0 => h [q0] * v q0)) * v q) + nsum n (fun q => kdiff (dot (x q)) (nsum n (fun q0 => h [q0] * v q0)) * a q)); [ring|].
    apply kadd_proper.
    + apply nsum_ext. intros i Hi. rewrite kdiff_nsum, <- nsum_scale_r. apply nsum_ext. intros j Hj. rewrite kdiff_mul, (x_v "lambda" n xs g Lx Hst) by assumption. ring.
    + apply nsum_ext. intros i Hi. rewrite kdiff_nsum. rewrite (nsum_ext n _ (fun j => kdelta i j * h [j])); [rewrite (nsum_delta_l n i (fun j => h [j]) Hi); reflexivity|].
      intros j Hj. rewrite kdiff_mul, (Hd i j Hi Hj), (dot_v "lambda" n xs g Lx Hst) by assumption. ring.
  - assert (E1 : nsum n (fun s => h [s] * Geo n xs g gi s) == Q + R).
    { unfold Q, R. rewrite <- nsum_add. apply nsum_ext. intros s _. unfold Geo, geodesic_of. ring. }
    assert (E2 : nsum n (fun i => nsum n (fun j => covariant_of n x G [-1]%Z h i [j] * (v i * v j))) == P - R).
    { assert (ER : R == nsum n (fun i => nsum n (fun j => nsum n (fun d => G d i j * h [d]) * (v i * v j)))).
      { unfold R. transitivity (nsum n (fun s => nsum n (fun i => nsum n (fun j => h [s] * (G s i j * (v i * v j)))))).
        - apply nsum_ext. intros s _. rewrite <- nsum_scale. apply nsum_ext. intros i _. rewrite <- nsum_scale. reflexivity.
        - rewrite nsum_swap. apply nsum_ext. intros i _. rewrite nsum_swap. apply nsum_ext. intros j _. rewrite <- nsum_scale_r. apply nsum_ext. intros d _. ring. }
      rewrite ER. unfold P. rewrite <- nsum_sub. apply nsum_ext. intros i _. rewrite <- nsum_sub. apply nsum_ext. intros j _.
      unfold covariant_of. cbn [length]. unfold nsum at 1. cbn [seq lsum nth Z.eqb Pos.eqb replaced firstn skipn app]. ring. }
    rewrite E1, E2. ring.
Qed.

Lemma symmetrised (f : nat -> nat -> K) : (forall i j, (i < n)%nat -> (j < n)%nat -> f i j + f j i == k0) ->
  nsum n (fun i => nsum n (fun j => f i j * (v i * v j))) == k0.
Proof.
  intros Hf. set (S := nsum n (fun i => nsum n (fun j => f i j * (v i * v j)))).
  assert (E : S + S == k0).
  { transitivity (S + nsum n (fun i => nsum n (fun j => f j i * (v j * v i)))); [apply kadd_proper; [reflexivity|unfold S; apply nsum_swap]|].
    unfold S. rewrite <- nsum_add. apply nsum_zero'. intros i Hi. rewrite <- nsum_add. apply nsum_zero'. intros j Hj.
    transitivity ((f i j + f j i) * (v i * v j)); [ring|]. rewrite Hf by assumption. ring. }
  transitivity (kinvn 2 * (S + S)); [symmetry; apply half_double|]. rewrite E. ring.
Qed.

Lemma lowered_pairing X : lowered_vector n g X h -> nsum n (fun s => h [s] * Geo n xs g gi s) == nsum n (fun k => X k * Geo_lowered n xs g gi k).
Proof.
  intros HX. transitivity (nsum n (fun s => nsum n (fun k => X k * (g k s * Geo n xs g gi s)))).
  - apply nsum_ext. intros s Hsn. rewrite (HX s Hsn), <- nsum_scale_r. apply nsum_ext. intros k Hk. rewrite (Hs s k) by assumption. ring.
  - rewrite nsum_swap. apply nsum_ext. intros k _. unfold Geo_lowered. rewrite <- nsum_scale. reflexivity.
Qed.
End Pure.

Section Computed.
Local Open Scope nat_scope.
Context {A : AlgOps} {L : AlgLaws A} {D : DiffLaws A} {C : CleanLaws A} {Y : SymLaws A}.
Add Ring Kring2 : kring (setoid keq_equiv kring_ext).
Variables (n : nat) (m c : oid) (name : string) (xs : list string) (g gi : nat -> nat -> K).
Notation session w := (metric_session w n m c name xs g gi).
Notation known w := (known_results n xs g gi w m c name).
Notation curves w := (known_curves n xs g gi w m c name).
Notation yields := (yields n xs g gi).
Notation v := (cvel xs).

Lemma killing_rate w t h coords a b : session w -> known w -> curves w -> static_metric n xs g -> coords = None \/ coords = Some c ->
  tensor_value w n m c t [-1]%Z h -> ~ named w "TEMP" t -> without_velocities n xs h -> a <> b -> two_letters_free [a; b] ->
  exists f u w1 e, yields (derivative t a [b]) m c name [(name ++ " Christoffel")%string] [a; b] [-1; -1]%Z f w /\
    calc_geodesic_christoffel m coords w = (Ok u, w1) /\ tensor_value w1 n m c u [1]%Z e /\
    exists r r', (forall s, s < n -> keq (kmul (r s) (r' s)) k1) /\
      keq (rate "lambda" xs (along xs n h))
        (kadd (nsum n (fun i => nsum n (fun j => kmul (f [i; j]) (kmul (velocity (nth i xs ""%string)) (velocity (nth j xs ""%string))))))
              (nsum n (fun s => kmul (h [s]) (kmul (r s) (e [s]))))).
Proof.
  intros HS HK HC St Co Vt Nt [Hp Hd] Nab H2. destruct (session_facts n m c name xs g gi w HS) as (Hs & Hi & Lx).
  destruct (geodesic_christoffel_gives n m c name xs g gi w coords HS HK HC Co) as (u & w1 & e & E1 & _ & _ & V1 & P1 & _).
  exists (fun idx => covariant_of n (cx xs) (Gam n xs g gi) [-1]%Z h (nth 0 idx 0) (tl idx)), u, w1, e. split.
  - exact (gradient_value n m c name xs g gi w t [-1]%Z h [b] a HS HK Vt Nt ltac:(constructor; [auto|constructor]) ltac:(repeat constructor; cbn; intuition congruence) eq_refl H2).
  - split; [exact E1|]. split; [exact V1|]. destruct (units_back n xs Lx e _ n ltac:(lia) P1) as (r & r' & Hr). exists r, r'. split; [apply Hr|].
    unfold along. etransitivity; [exact (along_rate n xs g gi Lx St h Hp Hd)|]. apply kadd_proper; [reflexivity|].
    apply nsum_ext. intros s Hsn. rewrite (proj2 (Hr s Hsn)). reflexivity.
Qed.

Lemma killing_conserved w t h X coords : session w -> known w -> curves w -> static_metric n xs g -> coords = None \/ coords = Some c ->
  tensor_value w n m c t [-1]%Z h -> without_velocities n xs h -> lowered_vector n g X h ->
  (forall p q, p < n -> q < n -> keq (lie_metric n (cx xs) g X p q) k0) ->
  exists t1 w1 e u w2 f, calc_geodesic_lagrangian m coords w = (Ok t1, w1) /\ tensor_value w1 n m c t1 [1]%Z e /\
    calc_geodesic_christoffel m coords w1 = (Ok u, w2) /\ tensor_value w2 n m c u [1]%Z f /\
    (exists r r', (forall k, k < n -> keq (kmul (r k) (r' k)) k1) /\
       keq (rate "lambda" xs (along xs n h)) (nsum n (fun k => kmul (X k) (kmul (r k) (e [k]))))) /\
    (exists r r', (forall s, s < n -> keq (kmul (r s) (r' s)) k1) /\
       keq (rate "lambda" xs (along xs n h)) (nsum n (fun s => kmul (h [s]) (kmul (r s) (f [s]))))).
Proof.
  intros HS HK HC St Co Vt [Hp Hd] HX HL. destruct (session_facts n m c name xs g gi w HS) as (Hs & Hi & Lx).
  destruct (geodesic_lagrangian_gives n m c name xs g gi w coords HS HK HC St Co) as (t1 & w1 & e & E1 & _ & _ & V1 & P1 & _ & S1 & K1 & C1).
  destruct (geodesic_christoffel_gives n m c name xs g gi w1 coords S1 K1 C1 Co) as (u & w2 & f & E2 & _ & _ & V2 & P2 & _).
  exists t1, w1, e, u, w2, f. repeat (split; [assumption|]).
  assert (R : keq (rate "lambda" xs (along xs n h)) (nsum n (fun s => kmul (h [s]) (Geo n xs g gi s)))).
  { unfold along. etransitivity; [exact (along_rate n xs g gi Lx St h Hp Hd)|].
    etransitivity; [apply kadd_proper; [|reflexivity]|].
    - apply (symmetrised n xs (fun i j => covariant_of n (cx xs) (Gam n xs g gi) [-1]%Z h i [j])). intros i j Hin Hjn.
      etransitivity; [exact (killing n (cx xs) g gi Hs Hi X h i j Hin Hjn HX)|apply HL; assumption].
    - ring. }
  split.
  - destruct (units_back n xs Lx e _ n ltac:(lia) P1) as (r & r' & Hr). exists r, r'. split; [apply Hr|].
    rewrite R, (lowered_pairing n xs g gi Hs h X HX). apply nsum_ext. intros k Hk. rewrite (proj2 (Hr k Hk)). reflexivity.
  - destruct (units_back n xs Lx f _ n ltac:(lia) P2) as (r & r' & Hr). exists r, r'. split; [apply Hr|].
    rewrite R. apply nsum_ext. intros k Hk. rewrite (proj2 (Hr k Hk)). reflexivity.
Qed.
End Computed.
