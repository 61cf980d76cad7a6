(** Operands that are refused, in a concrete session. *)
From Verif Require Import Alg Alg_P Arr Arr_P Spec TensorM Inst InstSph WorldM SpecWorld World_P CalcM SpecCalc CurvM SpecCurv SpecDefault ExWorld Witness_World_P Witness_Calc_P Witness_Volume_P Witness_Default_P.
Local Open Scope nat_scope.

Lemma def_two_tensors : exists o1 o2, @obj_of SphOps def_w 3 = Some o1 /\ obj_of def_w 4 = Some o2 /\ o_metric o1 <> o_metric o2 /\
  0 < o_rank o1 /\ 0 < o_rank o2 /\ cls_of def_w 3 <> Some CMetric /\ cls_of def_w 3 <> Some CCoordinates.
Proof.
  destruct sch_tensor as (_ & _ & (k & o1 & a & K1 & N1 & O1 & M1 & _ & R1 & _) & _ & C1 & _).
  destruct flr_tensor as (_ & _ & (k2 & o2 & a2 & _ & _ & O2 & M2 & _ & R2 & _) & _). exists o1, o2.
  split; [exact O1|]. split; [exact O2|]. split; [rewrite M1, M2; discriminate|]. split; [rewrite R1; cbn; lia|]. split; [rewrite R2; cbn; lia|].
  split; [exact C1|]. rewrite K1. intros [= E]. exact (N1 E).
Qed.

(** V("b") @ A("b") with V in x, y and A in u, v *)
Definition ex_A := mkCalc (Some 6) ["b"]%string RTensor.
Lemma ex_mixed_hyps :
  typed ex_calc_w /\
  exists o1 o2 a1 w1 a2 w2,
    labelled ex_calc_w ex_V 3 o1 /\ labelled ex_calc_w ex_A 6 o2 /\
    o_metric o1 = Some 2 /\ o_metric o2 = Some 2 /\ o_coords o1 = Some 0 /\ o_coords o2 = Some 1 /\ coordinate_system ex_calc_w 0 2 /\
    0 < o_rank o1 /\ 0 < o_rank o2 /\
    opposite (c_syms ex_V) (o_indices o1) (c_syms ex_A) (o_indices o2) [-1]%Z /\
    get_components 3 (Some 0) (Some (o_indices o1)) ex_calc_w = (Ok a1, w1) /\
    get_components 6 (Some 1) (Some [-1]%Z) w1 = (Ok a2, w2) /\
    cubic 2 a1 /\ rank a1 = o_rank o1 /\ cubic 2 a2 /\ rank a2 = o_rank o2.
Proof.
  split; [apply ex_calc_typed|].
  destruct (view_spec ex_calc_w 3 [1]%Z 0 2) as (o1 & A1 & A2 & A3 & A4 & A5); [vmtrue|].
  destruct (view_spec ex_calc_w 6 [-1]%Z 1 2) as (o2 & B1 & B2 & B3 & B4 & B5); [vmtrue|].
  destruct (got_spec 2 1 (get_components 3 (Some 0) (Some [1]%Z)) ex_calc_w) as (a1 & w1 & E1 & Ew & C1 & R1); [vmtrue|].
  destruct (got_spec 2 1 (get_components 6 (Some 1) (Some [-1]%Z)) w1) as (a2 & w2 & E2 & _ & C2 & R2); [rewrite Ew; vmtrue|]. clear Ew.
  exists o1, o2, a1, w1, a2, w2.
  split; [apply (operand_ok _ _ _ [1]%Z 0 2); try assumption; [distinct|reflexivity|cfg]|].
  split; [apply (operand_ok _ _ _ [-1]%Z 1 2); try assumption; [distinct|reflexivity|cfg]|].
  split; [exact A5|]. split; [exact B5|]. split; [exact A4|]. split; [exact B4|]. split; [apply systemb_spec; vmtrue|].
  split; [rewrite A3; cbn; lia|]. split; [rewrite B3; cbn; lia|]. split.
  { rewrite A2, B2. split; [reflexivity|]. intros j x z Hx Hz.
    destruct j as [|j]; cbn in Hx, Hz; try (destruct j; discriminate); injection Hx as <-; injection Hz as <-.
    split; [|intros N; exfalso; apply N; left; reflexivity]. intros p z1 H1 H2. destruct p as [|p]; cbn in H1, H2; [|destruct p; discriminate].
    injection H2 as <-. reflexivity. }
  rewrite A2. split; [exact E1|]. split; [exact E2|]. split; [exact C1|]. split; [rewrite R1, A3; reflexivity|]. split; [exact C2|]. rewrite R2, B3; reflexivity.
Qed.
