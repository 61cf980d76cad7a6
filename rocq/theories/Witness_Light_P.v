(** Sessions with metrics that differ by a factor, and their geodesics. *)
From Coq Require Import QArith Qcanon.
From Verif Require Import Alg Alg_P Arr Arr_P Spec TensorM Inst InstExp WorldM SpecWorld CalcM SpecCalc CurvM SpecCurv SpecScale GeodM SpecGeod SpecLight Ex ExWorld Witness_World_P Witness_Geod_P Witness_Volume_P Witness_Scale_P Witness_Charge_P.
Local Open Scope nat_scope.

#[export] Instance ExpClean : @CleanLaws ExpOps.
Proof.
  constructor. intros e. exists (PC 1%Q), (PC 1%Q).
  assert (G := @kring ExpOps ExpLaws). destruct G as [_ _ _ H1 _ _ _ _ _]. split; [apply H1|].
  etransitivity; [apply esimp_ok|]. symmetry. apply H1.
Qed.
Lemma exp_curves (w : @world ExpOps) n m c name xs g gi :
  a_free w (map (append name) [" Lagrangian"; " Geodesic From Lagrangian"; " Geodesic From Christoffel"; " Geodesic With Time Parameter"])%string = true ->
  @known_curves ExpOps n xs g gi w m c name.
Proof.
  intros H. assert (N := a_free_spec _ _ H). cbn [map] in N.
  assert (Kn : forall k s i P, In s (map (append name) [" Lagrangian"; " Geodesic From Lagrangian"; " Geodesic From Christoffel"; " Geodesic With Time Parameter"])%string ->
    @known_curve ExpOps n w m c k s i P).
  { intros k s i P Hs j Hj _ Hn. exfalso. apply (N s j Hs Hj Hn). }
  repeat split; apply Kn; cbn; auto 10.
Qed.
Lemma four_curves :
  known_curves 4 four (emat prod_g) (emat prod_gi) prod_w 1 0 "g" /\
  known_curves 4 four (emat prod4_g) (emat prod4_gi) prod4_w 1 0 "h" /\
  known_curves 4 four (emat conf_g) (emat conf_gi) conf_w 1 0 "k".
Proof. split; [|split]; apply exp_curves; vmtrue. Qed.
(** The factor exp(2z) has a gradient, and it changes along curves. *)
Lemma conf_gradient :
  @keq ExpOps (@gradient ExpOps 4 four (emat prod_gi) (sq e_z) 2) (PMul (PC 2%Q) (sq e_z)) /\ ~ @keq ExpOps (PMul (PC 2%Q) (sq e_z)) (@k0 ExpOps) /\
  @keq ExpOps (@change_along ExpOps 4 four (sq e_z)) (PMul (PMul (PC 2%Q) (sq e_z)) (PV "zdot")).
Proof.
  split; [apply a_same_spec; vmtrue|]. split; [|apply a_same_spec; vmtrue].
  intros H. apply (eeq_Qc _ _ (fun _ => 1%Qc)) in H; [|reflexivity]. discriminate H.
Qed.
(** Four times the plane wave. *)
Definition wave4_g : @arr PolyOps := @mkArr PolyOps [3; 3] [PMul (pz 4) (PMul (pv "x") (pv "x")); pz 4; pz 0; pz 4; pz 0; pz 0; pz 0; pz 0; pz 4].
Definition wave4_gi : @arr PolyOps := @mkArr PolyOps [3; 3]
  [pz 0; PC (1 # 4)%Q; pz 0; PC (1 # 4)%Q; POpp (PMul (PC (1 # 4)%Q) (PMul (pv "x") (pv "x"))); pz 0; pz 0; pz 0; PC (1 # 4)%Q].
Definition wave4_w : @world PolyOps := run_all
  [OpCoordinates (ex_str "UVX") (VSyms [3] wave_xs) (VTuple [1]%Z) (ex_str "x") [];
   OpMetric (ex_str "h") (VArr wave4_g) (VObj 0) (VTuple [-1; -1]%Z) (ex_str "g")] empty_world.
Lemma wave4_session :
  metric_session wave4_w 3 1 0 "h" wave_xs (wmat wave4_g) (wmat wave4_gi) /\
  known_results 3 wave_xs (wmat wave4_g) (wmat wave4_gi) wave4_w 1 0 "h" /\
  known_curves 3 wave_xs (wmat wave4_g) (wmat wave4_gi) wave4_w 1 0 "h" /\
  static_metric 3 wave_xs (wmat wave4_g).
Proof.
  split; [apply a_sessionb_spec; [apply run_all_reachable; [apply reach_start|vmtrue]|vmtrue]|]. split; [apply a_known_none; vmtrue|].
  split; [apply curves_none; vmtrue|apply staticb_spec; vmtrue].
Qed.
Lemma wave4_times : @times_metric PolyOps 3 (pz 4) (wmat wave_g) (wmat wave4_g) /\ @keq PolyOps (@kmul PolyOps (pz 4) (PC (1 # 4)%Q)) (@k1 PolyOps) /\
  @constant PolyOps wave_xs (pz 4).
Proof.
  split; [|split].
  - intros i j. apply (a_matb_spec 3 (wmat wave4_g) (fun i j => @kmul PolyOps (pz 4) (aget wave_g [i; j]))). vmtrue.
  - apply a_same_spec. vmtrue.
  - intros s Hs. apply a_same_spec. destruct Hs as [<-|[<-|[<-|[]]]]; vmtrue.
Qed.
(** The plane wave has a geodesic equation with a Christoffel symbol that is not zero. *)
Lemma wave4_christoffel : ~ keq (Gam 3 wave_xs (wmat wave_g) (wmat wave_gi) 2 0 0) k0.
Proof. intros H. apply (peq_Qc _ _ (fun _ => 1%Qc)) in H. revert H. vm_compute. intros H. discriminate H. Qed.
(** The second derivatives of the factor exp(2z), and the Ricci scalars -2 and -8 exp(-2z). *)
Lemma conf_second :
  @keq ExpOps (@wave_operator ExpOps 4 four (emat prod_g) (emat prod_gi) (sq e_z)) (PMul (PC 4%Q) (sq e_z)) /\
  @keq ExpOps (@gradient_square ExpOps 4 four (emat prod_gi) (sq e_z)) (PMul (PC 4%Q) (sq (sq e_z))) /\
  @keq ExpOps (@Sca ExpOps 4 four (emat prod_g) (emat prod_gi)) (PC (-2)%Q) /\
  @keq ExpOps (@Sca ExpOps 4 four (emat conf_g) (emat conf_gi)) (PMul (PC (-8)%Q) (sq i_z)).
Proof. split; [apply a_same_spec; vmtrue|]. split; [apply a_same_spec; vmtrue|]. split; apply a_same_spec; vmtrue. Qed.
