(** Hyperbolic space has the curvature -1. *)
From Coq Require Import QArith Qcanon.
From Verif Require Import Alg Alg_P Arr Arr_P Spec TensorM Inst InstExp WorldM SpecWorld CalcM SpecCalc CurvM SpecCurv SpecDim SpecConst ExWorld Witness_World_P Witness_Volume_P.
Local Open Scope nat_scope.

Lemma hyp_curvature : @curvature_like ExpOps 3 hyp_xyz (emat hyp_g) (emat hyp_gi) (PC (-1)%Q).
Proof.
  assert (H : forallb (fun i => forallb (fun j => forallb (fun l => forallb (fun m =>
     @a_same ExpOps (@lowered ExpOps 3 (emat hyp_g) (@Rie ExpOps 3 hyp_xyz (emat hyp_g) (emat hyp_gi)) i j l m) (@gg ExpOps (emat hyp_g) (PC (-1)%Q) i j l m))
     (seq 0 3)) (seq 0 3)) (seq 0 3)) (seq 0 3) = true) by vmtrue.
  intros i j l m Hi Hj Hl Hm. rewrite forallb_forall in H. specialize (H i (proj2 (in_seq 3 0 i) ltac:(lia))). rewrite forallb_forall in H.
  specialize (H j (proj2 (in_seq 3 0 j) ltac:(lia))). rewrite forallb_forall in H. specialize (H l (proj2 (in_seq 3 0 l) ltac:(lia))).
  rewrite forallb_forall in H. apply a_same_spec, H, in_seq. lia.
Qed.
Lemma hyp_no_ricci : forall j, In j (insts hyp_w) -> named hyp_w ("g" ++ " Ricci Tensor") j -> ~ used hyp_w j.
Proof.
  intros j Hj Hn. exfalso. assert (F : a_free hyp_w ["g Ricci Tensor"%string] = true) by vmtrue.
  exact (a_free_spec _ _ F "g Ricci Tensor"%string j (or_introl eq_refl) Hj Hn).
Qed.

(** The hyperbolic plane; its Ricci scalar is -2. *)
Definition plane_xy : list string := ["x"; "y"]%string.
Definition plane_g : @arr ExpOps := @mkArr ExpOps [2; 2] [PC 1%Q; PC 0%Q; PC 0%Q; PMul e_x e_x].
Definition plane_gi : @arr ExpOps := @mkArr ExpOps [2; 2] [PC 1%Q; PC 0%Q; PC 0%Q; PMul i_x i_x].
Definition plane_w : @world ExpOps := @run_all ExpOps
  [OpCoordinates (str_ "XY") (VSyms [2] plane_xy) (VTuple [1]%Z) (str_ "x") [];
   OpMetric (str_ "g") (VArr plane_g) (VObj 0) (VTuple [-1; -1]%Z) (str_ "g")] empty_world.
Lemma plane_session :
  metric_session plane_w 2 1 0 "g" plane_xy (emat plane_g) (emat plane_gi) /\ known_results 2 plane_xy (emat plane_g) (emat plane_gi) plane_w 1 0 "g" /\
  @keq ExpOps (@Sca ExpOps 2 plane_xy (emat plane_g) (emat plane_gi)) (PC (-2)%Q) /\ ~ @keq ExpOps (PC (-2)%Q) (@k0 ExpOps).
Proof.
  split; [apply a_sessionb_spec; [apply run_all_reachable; [apply reach_start|vmtrue]|vmtrue]|]. split; [apply a_known_none; vmtrue|].
  split; [apply a_same_spec; vmtrue|]. intros H. apply (eeq_Qc _ _ (fun _ => 1%Qc)) in H; [|reflexivity]. discriminate H.
Qed.
