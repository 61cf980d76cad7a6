(** Geodesics of the metrics of Defaults.py in concrete sessions. *)
From Coq Require Import QArith Qcanon.
From Verif Require Import Alg Alg_P Arr Arr_P Spec TensorM Inst InstExp InstSph WorldM SpecWorld CalcM SpecCalc CurvM SpecCurv SpecScale SpecDefault GeodM SpecGeod SpecOrbit ExWorld Witness_World_P Witness_Volume_P Witness_Default_P Witness_Scale_P Witness_Light_P.
Local Open Scope nat_scope.

#[export] Instance SphClean : @CleanLaws SphOps.
Proof.
  constructor. intros e. exists (PC 1%Q), (PC 1%Q).
  assert (G := @kring SphOps SphLaws). destruct G as [_ _ _ H1 _ _ _ _ _]. split; [apply H1|].
  etransitivity; [apply ssimp_ok|]. symmetry. apply H1.
Qed.
Lemma sph_curves (w : @world SphOps) n m c name xs g gi :
  a_free w (map (append name) [" Lagrangian"; " Geodesic From Lagrangian"; " Geodesic From Christoffel"; " Geodesic With Time Parameter"])%string = true ->
  @known_curves SphOps n xs g gi w m c name.
Proof.
  intros H. assert (N := a_free_spec _ _ H). cbn [map] in N.
  assert (Kn : forall k s i P, In s (map (append name) [" Lagrangian"; " Geodesic From Lagrangian"; " Geodesic From Christoffel"; " Geodesic With Time Parameter"])%string ->
    @known_curve SphOps n w m c k s i P).
  { intros k s i P Hs j Hj _ Hn. exfalso. apply (N s j Hs Hj Hn). }
  repeat split; apply Kn; cbn; auto 10.
Qed.
Lemma def_curves :
  @known_curves SphOps 4 sph_xs sch_g sch_gi def_w 1 0 "Schwarzschild" /\ @known_curves SphOps 4 sph_xs flr_g flr_gi def_w 2 0 "FLRW".
Proof. split; apply sph_curves; vmtrue. Qed.
(** dx^2 + dy^2 + dz^2 - dt^2 *)
Definition mink_w := four_w "m" cflat_h.
Lemma mink_session :
  (metric_session mink_w 4 1 0 "m" four (emat cflat_h) (emat cflat_h) /\ known_results 4 four (emat cflat_h) (emat cflat_h) mink_w 1 0 "m") /\
  known_curves 4 four (emat cflat_h) (emat cflat_h) mink_w 1 0 "m".
Proof. split; [four_session|apply exp_curves; vmtrue]. Qed.
