(** The product of two hyperbolic planes dx^2 + exp(2x) dy^2 and dz^2 + exp(2z) dt^2. *)
From Coq Require Import QArith Qcanon.
From Verif Require Import Alg Alg_P Arr Arr_P Spec TensorM Inst InstExp WorldM SpecWorld CalcM SpecCalc CurvM SpecCurv SpecBlock ExWorld Witness_World_P Witness_Volume_P Witness_Const_P Witness_Scale_P.
Local Open Scope nat_scope.

Definition zt : list string := ["z"; "t"]%string.
Definition zt_g : @arr ExpOps := @mkArr ExpOps [2; 2] [PC 1%Q; PC 0%Q; PC 0%Q; sq e_z].
Definition zt_gi : @arr ExpOps := @mkArr ExpOps [2; 2] [PC 1%Q; PC 0%Q; PC 0%Q; sq i_z].
Definition zt_w : @world ExpOps := @run_all ExpOps
  [OpCoordinates (str_ "ZT") (VSyms [2] zt) (VTuple [1]%Z) (str_ "x") [];
   OpMetric (str_ "h") (VArr zt_g) (VObj 0) (VTuple [-1; -1]%Z) (str_ "g")] empty_world.
Definition pair_g : @arr ExpOps := diag4 (PC 1%Q) (sq e_x) (PC 1%Q) (sq e_z).
Definition pair_gi : @arr ExpOps := diag4 (PC 1%Q) (sq i_x) (PC 1%Q) (sq i_z).
Definition pair_w := four_w "p" pair_g.

Lemma zt_session :
  metric_session zt_w 2 1 0 "h" zt (emat zt_g) (emat zt_gi) /\ known_results 2 zt (emat zt_g) (emat zt_gi) zt_w 1 0 "h".
Proof. split; [apply a_sessionb_spec; [apply run_all_reachable; [apply reach_start|vmtrue]|vmtrue]|apply a_known_none; vmtrue]. Qed.
Lemma pair_session :
  metric_session pair_w (2 + 2) 1 0 "p" (plane_xy ++ zt) (emat pair_g) (emat pair_gi) /\
  known_results (2 + 2) (plane_xy ++ zt) (emat pair_g) (emat pair_gi) pair_w 1 0 "p".
Proof. split; [apply a_sessionb_spec; [apply run_all_reachable; [apply reach_start|vmtrue]|vmtrue]|apply a_known_none; vmtrue]. Qed.
Lemma constant_mat xs g : forallb (fun s => @a_matb ExpOps 2 (fun i j => @kdiff ExpOps s (@aget ExpOps g [i; j])) (fun _ _ => @k0 ExpOps)) xs = true ->
  forall i j s, i < 2 -> j < 2 -> In s xs -> @keq ExpOps (@kdiff ExpOps s (@aget ExpOps g [i; j])) (@k0 ExpOps).
Proof. intros H i j s Hi Hj Hs. rewrite forallb_forall in H. exact (a_matb_spec 2 _ _ (H s Hs) i j Hi Hj). Qed.
Lemma pair_product : @product_metric ExpOps 2 2 plane_xy zt (emat plane_g) (emat zt_g) (emat pair_g).
Proof.
  split; [apply (a_matb_spec (2 + 2) (emat pair_g) (fun i j => @joined ExpOps 2 (@at2 ExpOps (emat plane_g)) (@at2 ExpOps (emat zt_g)) [i; j])); vmtrue|].
  split; apply constant_mat; vmtrue.
Qed.
Lemma pair_scalar : @keq ExpOps (@Sca ExpOps 4 (plane_xy ++ zt) (emat pair_g) (emat pair_gi)) (PC (-4)%Q) /\ ~ @keq ExpOps (PC (-4)%Q) (@k0 ExpOps).
Proof.
  split; [apply a_same_spec; vmtrue|]. intros H. apply (eeq_Qc _ _ (fun _ => 1%Qc)) in H; [|reflexivity]. discriminate H.
Qed.
