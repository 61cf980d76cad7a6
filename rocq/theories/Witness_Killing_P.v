(** Hyperbolic space with two covectors: a rotation, which is a symmetry, and the coordinate
    vector of x, which is not. *)
From Coq Require Import QArith Qcanon.
From Verif Require Import Alg Alg_P Arr Arr_P Spec UtilsM Arr2_P Act_P TensorM Inst InstExp WorldM SpecWorld World_P Registry_P CalcM SpecCalc Calc_P CurvM SpecCurv SpecCov SpecDeriv SpecKilling Curv2_P CurvRun_P Cov4_P Norm_P ExWorld Witness_World_P Witness_Volume_P.
Local Open Scope nat_scope.
Local Notation pz := (fun z => PC (inject_Z z)).

Definition rot_X (k : nat) : pexp := nth k [pz 0%Z; POpp (PV "z"); PV "y"]%string (pz 0%Z).
Definition rot_h : @arr ExpOps := @mkArr ExpOps [3] [pz 0%Z; PMul (PMul e_x e_x) (POpp (PV "z")); PMul (PMul e_x e_x) (PV "y")]%string.
Definition dx_h : @arr ExpOps := @mkArr ExpOps [3] [pz 1%Z; pz 0%Z; pz 0%Z].
Definition sym_w : @world ExpOps := @run_all ExpOps
  [OpCoordinates (str_ "XYZ") (VSyms [3] hyp_xyz) (VTuple [1]%Z) (str_ "x") [];
   OpMetric (str_ "g") (VArr hyp_g) (VObj 0) (VTuple [-1; -1]%Z) (str_ "g");
   OpTensor (str_ "R") (VArr rot_h) (VObj 1) (VObj 0) (VTuple [-1]%Z) (str_ "R");
   OpTensor (str_ "B") (VArr dx_h) (VObj 1) (VObj 0) (VTuple [-1]%Z) (str_ "B")] empty_world.
Lemma sym_session :
  metric_session sym_w 3 1 0 "g" hyp_xyz (emat hyp_g) (emat hyp_gi) /\ known_results 3 hyp_xyz (emat hyp_g) (emat hyp_gi) sym_w 1 0 "g".
Proof. split; [apply a_sessionb_spec; [apply run_all_reachable; [apply reach_start|vmtrue]|vmtrue]|apply a_known_none; vmtrue]. Qed.
Lemma line_spec (n : nat) (f h : nat -> @K ExpOps) : forallb (fun i => @a_same ExpOps (f i) (h i)) (seq 0 n) = true -> forall i, i < n -> @keq ExpOps (f i) (h i).
Proof. intros H i Hi. rewrite forallb_forall in H. apply a_same_spec, H, in_seq. lia. Qed.
Lemma sym_tensors :
  (exists h, tensor_value sym_w 3 1 0 2 [-1]%Z h /\ @lowered_vector ExpOps 3 (emat hyp_g) rot_X h) /\ ~ named sym_w "TEMP" 2 /\
  (exists h, tensor_value sym_w 3 1 0 3 [-1]%Z h /\ forall q, q < 3 -> @keq ExpOps (h [q]) (emat hyp_g q 0)) /\ ~ named sym_w "TEMP" 3.
Proof.
  destruct (a_tensorb_spec sym_w 3 1 0 2 [-1]%Z ltac:(vmtrue)) as [V2 N2]. destruct (a_tensorb_spec sym_w 3 1 0 3 [-1]%Z ltac:(vmtrue)) as [V3 N3].
  split; [eexists; split; [exact V2|]|]. { unfold lowered_vector. apply (line_spec 3 (fun q => aget (a_comps sym_w 2 0) [q])). vmtrue. }
  split; [exact N2|]. split; [eexists; split; [exact V3|]|exact N3]. apply (line_spec 3 (fun q => aget (a_comps sym_w 3 0) [q])). vmtrue.
Qed.
Lemma sym_lie :
  (forall p q, p < 3 -> q < 3 -> @keq ExpOps (@lie_metric ExpOps 3 (cx hyp_xyz) (emat hyp_g) rot_X p q) (@k0 ExpOps)) /\
  ~ @keq ExpOps (@kdiff ExpOps "x" (emat hyp_g 1 1)) (@k0 ExpOps).
Proof.
  split.
  - apply (a_matb_spec 3 (fun p q => @lie_metric ExpOps 3 (cx hyp_xyz) (emat hyp_g) rot_X p q) (fun _ _ => @k0 ExpOps)). vmtrue.
  - intros Q. apply (eeq_Qc _ _ (fun _ => 1%Qc)) in Q; [|reflexivity]. vm_compute in Q. discriminate Q.
Qed.
Lemma sym_letters : "a"%string <> "b"%string /\ two_letters_free ["a"; "b"]%string.
Proof. split; [discriminate|apply letters_free; cbn; lia]. Qed.
