(** Concrete repeated covariant derivatives. *)
From Coq Require Import QArith Qcanon.
From Verif Require Import Alg Alg_P Arr Arr_P Spec UtilsM Arr2_P Act_P TensorM Inst Ex WorldM SpecWorld World_P Registry_P CalcM SpecCalc Calc_P CurvM SpecCurv SpecCov SpecDeriv Curv2_P CurvRun_P Cov4_P CurvDim2_P Norm_P ExWorld Witness_World_P Witness_History_P Witness_Calc_P Witness_Curv_P Witness_Cov_P.
Local Open Scope nat_scope.
Local Open Scope string_scope.

Definition ex_steps : list (string * string * list string) :=
  [("DC", "c", ["a"; "b"]); ("DDC", "d", ["c"; "a"; "b"]); ("DDDC", "e", ["d"; "c"; "a"; "b"])].
Lemma ex_fit : fit "g" 2 ex_steps.
Proof.
  repeat split; try discriminate; try (apply letters_free; cbn; lia); try distinct; cbn; intros H; repeat (destruct H as [H|H]; [discriminate H|]); exact H.
Qed.
Lemma ex_new_name : "P" <> "TEMP" /\ ~ In "P" (curvature_names "g").
Proof. split; [discriminate|]. cbn. intros H; repeat (destruct H as [H|H]; [discriminate H|]); exact H. Qed.

(** The components of C^a_b as a tensor C_a^b that was raised and lowered. *)
Lemma ex_raised : exists h, tensor_value ex_calc_w 2 2 0 8 [1; -1]%Z (converted 2 (mat2 ex_g) (mat2 ex_gi) [-1; 1]%Z [1; -1]%Z h).
Proof.
  destruct ex_covariant_hyps as (HS & _ & (h0 & k & o & a & H1 & H2 & H3 & H4 & H5 & H6 & H7 & (C & R & V)) & _).
  exists (converted 2 (mat2 ex_g) (mat2 ex_gi) [1; -1]%Z [-1; 1]%Z h0), k, o, a.
  do 7 (split; [assumption|]). split; [exact C|]. split; [exact R|]. intros idx Hi. rewrite (V idx Hi).
  assert (Ig : inverse_fun 2 (mat2 ex_g) (mat2 ex_gi)) by apply HS.
  rewrite (converted_comp 2 (mat2 ex_g) (mat2 ex_gi) [1; -1]%Z [-1; 1]%Z [1; -1]%Z h0 idx Ig) by (try exact Hi; try reflexivity; cfg).
  symmetry. apply converted_self. exact Hi.
Qed.
