(** A concrete formula of which the covariant derivative is computed. *)
From Coq Require Import QArith Qcanon Permutation.
From Verif Require Import Alg Alg_P Arr Arr_P Spec UtilsM Arr2_P Act_P TensorM Inst Ex WorldM SpecWorld World_P Registry_P CalcM SpecCalc Calc_P CurvM SpecCurv SpecChange SpecCov Curv2_P CurvRun_P Cov3_P Cov4_P ExWorld ExForm Witness_World_P Witness_History_P Witness_Calc_P Witness_Curv_P Witness_Norm_P Witness_Change_P Witness_Form_P Witness_Head_P.
From Verif Require Import SpecHead SpecLeib SpecForm.
Local Open Scope nat_scope.

(** 2 * S("b a") @ V("a") - V("b") / 2 *)
Definition leib_formula : @formula PolyOps :=
  FSub (FScale (pz 2 : @K PolyOps) (FMul (FTensor 4 ["b"; "a"]%string) (ex_v "a"%string))) (FOver (PC (1 # 2) : @K PolyOps) (ex_v "b"%string)).

Lemma leib_all :
  metric_session ex_form_w 3 2 0 "g" (g_syms ex_geo3 0) (g_G ex_geo3 0) (g_Gi ex_geo3 0) /\
  known_results 3 (g_syms ex_geo3 0) (g_G ex_geo3 0) (g_Gi ex_geo3 0) ex_form_w 2 0 "g" /\
  well_formed ex_conf leib_formula /\ algebraic leib_formula /\
  (forall t, In t (leaves leib_formula) ->
     operand ex_form_w 3 2 0 (g_G ex_geo3 0) (g_Gi ex_geo3 0) t (ex_conf t)
       (act 3 (map (conv (g_G ex_geo3 0) (g_Gi ex_geo3 0) (-1)%Z) (ex_conf t)) (ex_cov t 0))) /\
  "W"%string <> "TEMP"%string /\ ~ In "W"%string (curvature_names "g") /\
  free_syms leib_formula = ["b"%string] /\ ~ In "c"%string (free_syms leib_formula) /\ free_letters all_symbols ["c"; "b"]%string /\
  ~ keq (nabla_value ex_conf 3 (g_syms ex_geo3 0) (g_G ex_geo3 0) (g_Gi ex_geo3 0) (fun t => ex_cov t 0) leib_formula 1 (fun _ => 0)) k0.
Proof.
  destruct ex_head_all as (HS & HK & _ & FL & _).
  split; [exact HS|]. split; [exact HK|]. split.
  { assert (W : well_formed (A := PolyOps) ex_conf (FTensor 4 ["b"; "a"]%string)).
    { split; [reflexivity|]. intros x. unfold count. cbn. destruct (String.eqb x "b"), (String.eqb x "a"); cbn; lia. }
    assert (N : forall a, well_formed ex_conf (ex_v a)).
    { intros a. split; [reflexivity|]. intros x. unfold count. cbn. destruct (String.eqb x a); cbn; lia. }
    cbn [leib_formula well_formed]. split; [split; [exact W|apply N]|]. split; [apply N|]. apply (Permutation_refl ["b"%string]). }
  split; [cbn; tauto|]. split.
  { intros t Ht. apply (ex_operand t). cbn in Ht |- *. tauto. }
  split; [discriminate|]. split; [cbn; intuition discriminate|]. split; [reflexivity|]. split; [cbn; intuition discriminate|]. split; [exact FL|].
  destruct (differ2_spec (mret (@nabla_value PolyOps ex_conf 3 (g_syms ex_geo3 0) (g_G ex_geo3 0) (g_Gi ex_geo3 0) (fun t => ex_cov t 0) leib_formula 1 (fun _ => 0) : pexp, @k0 PolyOps : pexp)) ex_form_w v12) as (x & y & w' & H & N); [vmtrue|].
  apply ret_inv in H as [H _]. injection H as -> ->. exact N.
Qed.
