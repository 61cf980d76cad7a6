(** Geodesics of the metrics of Defaults.py: C211. *)
From Coq Require Import QArith Qcanon.
From Verif Require Import Alg Arr Spec TensorM WorldM SpecWorld CalcM SpecCalc CurvM SpecCurv SpecConst SpecScale SpecDefault GeodM SpecGeod SpecOrbit Orbit_P Inst InstExp InstSph ExWorld Witness_Volume_P Witness_Default_P Witness_Scale_P Witness_Light_P Witness_Orbit_P.
Local Open Scope nat_scope.

Section Orbit.
Context {A : AlgOps} {L : AlgLaws A} {D : DiffLaws A} {Cl : CleanLaws A}.
Variables (m c : oid) (name : string) (xs : list string) (g gi : nat -> nat -> K) (w : world) (coords : option oid).
Notation christoffel_names := [(name ++ " Christoffel")%string; (name ++ " Geodesic From Christoffel")%string].
Notation time_names := [(name ++ " Christoffel")%string; (name ++ " Geodesic With Time Parameter")%string].

(** C211.  The geodesic equations that are computed are, up to invertible factors, the ones known
    from textbooks: for the Schwarzschild metric with any constant M, *)
Theorem C211_schwarzschild_geodesics M r ri s si cos fi :
  metric_session w 4 m c name xs g gi -> known_results 4 xs g gi w m c name -> known_curves 4 xs g gi w m c name ->
  coords = None \/ coords = Some c ->
  spherical_functions xs r ri s si cos -> constant_in xs M -> keq (kmul (horizon_function M ri) fi) k1 ->
  (forall i j, i < 4 -> j < 4 -> keq (g i j) (schwarzschild M r ri s fi i j)) ->
  gives_curve 4 xs g gi (calc_geodesic_christoffel m coords) m c name christoffel_names CGeodesic [1]%Z
    (is_geodesic 4 (schwarzschild_orbit M r ri s si cos fi (cvel xs) (cacc xs))) w /\
  gives_curve 4 xs g gi (calc_geodesic_time m coords) m c name time_names CGeodesic [1]%Z
    (is_geodesic 4 (by_time (schwarzschild_orbit M r ri s si cos fi) xs)) w.
Proof. exact (fun HS HK HC Co => sch_orbits m c name xs g gi w coords HS HK HC Co M r ri s si cos fi). Qed.
(** for the FLRW metric with any scale factor a(t) and any constant k, *)
Theorem C211_flrw_geodesics a ai a1 k r ri s si cos wi :
  metric_session w 4 m c name xs g gi -> known_results 4 xs g gi w m c name -> known_curves 4 xs g gi w m c name ->
  coords = None \/ coords = Some c ->
  spherical_functions xs r ri s si cos -> constant_in xs k -> keq (kmul a ai) k1 -> depends_on xs 0 a a1 ->
  keq (kmul (curvature_function k r) wi) k1 ->
  (forall i j, i < 4 -> j < 4 -> keq (g i j) (flrw a r s wi i j)) ->
  gives_curve 4 xs g gi (calc_geodesic_christoffel m coords) m c name christoffel_names CGeodesic [1]%Z
    (is_geodesic 4 (flrw_orbit a ai a1 k r ri s si cos wi (cvel xs) (cacc xs))) w /\
  gives_curve 4 xs g gi (calc_geodesic_time m coords) m c name time_names CGeodesic [1]%Z
    (is_geodesic 4 (by_time (flrw_orbit a ai a1 k r ri s si cos wi) xs)) w.
Proof. exact (fun HS HK HC Co => flr_orbits m c name xs g gi w coords HS HK HC Co a ai a1 k r ri s si cos wi). Qed.
(** and straight lines for a metric with constant components in any dimension. *)
Theorem C211_flat_geodesics n :
  metric_session w n m c name xs g gi -> known_results n xs g gi w m c name -> known_curves n xs g gi w m c name ->
  coords = None \/ coords = Some c -> (forall i j, i < n -> j < n -> constant xs (g i j)) ->
  gives_curve n xs g gi (calc_geodesic_christoffel m coords) m c name christoffel_names CGeodesic [1]%Z (is_geodesic n (cacc xs)) w /\
  gives_curve n xs g gi (calc_geodesic_time m coords) m c name time_names CGeodesic [1]%Z (is_geodesic n (tacc xs)) w.
Proof. exact (flat_orbits n m c name xs g gi w coords). Qed.
End Orbit.
Print Assumptions C211_schwarzschild_geodesics.
Print Assumptions C211_flrw_geodesics.
Print Assumptions C211_flat_geodesics.

(** The two metrics with symbols M and k and a function a. *)
Example orbit_sessions_met :
  (@metric_session SphOps def_w 4 1 0 "Schwarzschild" sph_xs sch_g sch_gi /\ @known_results SphOps 4 sph_xs sch_g sch_gi def_w 1 0 "Schwarzschild" /\
   @known_curves SphOps 4 sph_xs sch_g sch_gi def_w 1 0 "Schwarzschild") /\
  (@metric_session SphOps def_w 4 2 0 "FLRW" sph_xs flr_g flr_gi /\ @known_results SphOps 4 sph_xs flr_g flr_gi def_w 2 0 "FLRW" /\
   @known_curves SphOps 4 sph_xs flr_g flr_gi def_w 2 0 "FLRW").
Proof. exact (conj (conj sch_session (conj sch_known (proj1 def_curves))) (conj flr_session (conj flr_known (proj2 def_curves)))). Qed.
Example orbit_functions_met :
  @spherical_functions SphOps sph_xs v_r v_ri v_s v_si v_c /\ @constant_in SphOps sph_xs v_M /\ @constant_in SphOps sph_xs v_k /\
  @keq SphOps (kmul (@horizon_function SphOps v_M v_ri) v_fi) k1 /\
  (forall i j, i < 4 -> j < 4 -> @keq SphOps (sch_g i j) (@schwarzschild SphOps v_M v_r v_ri v_s v_fi i j)) /\
  (forall i j, i < 4 -> j < 4 -> @keq SphOps (flr_g i j) (@flrw SphOps v_a v_r v_s v_wi i j)).
Proof.
  split; [exact def_functions|]. split; [exact (def_constant "M" (or_introl eq_refl))|]. split; [exact (def_constant "k" (or_intror eq_refl))|].
  split; [exact sch_horizon|]. split; intros i j _ _; reflexivity.
Qed.
Example orbit_laws_met : @AlgLaws SphOps /\ @DiffLaws SphOps /\ @CleanLaws SphOps /\ @depends_on SphOps sph_xs 0 v_a v_a1.
Proof. exact (conj SphLaws (conj SphDiff (conj SphClean (proj1 def_scale)))). Qed.
Example orbit_flat_met :
  ((metric_session mink_w 4 1 0 "m" four (emat cflat_h) (emat cflat_h) /\ known_results 4 four (emat cflat_h) (emat cflat_h) mink_w 1 0 "m") /\
   known_curves 4 four (emat cflat_h) (emat cflat_h) mink_w 1 0 "m") /\
  forall i j, i < 4 -> j < 4 -> @constant ExpOps four (@aget ExpOps cflat_h [i; j]).
Proof. exact (conj mink_session (proj2 (proj2 cflat_times))). Qed.
Example orbit_flrw_met :
  @keq SphOps (@kmul SphOps v_a v_ai) k1 /\ @keq SphOps (kmul (@curvature_function SphOps v_k v_r) v_wi) k1.
Proof. exact (conj flr_inverse flr_curvature). Qed.
