(** A concrete formula that contains one covariant derivative. *)
From Coq Require Import QArith Qcanon Permutation.
From Verif Require Import Alg Alg_P Arr Arr_P Spec UtilsM Arr2_P Act_P TensorM Inst Ex WorldM SpecWorld World_P Registry_P CalcM SpecCalc Calc_P CurvM SpecCurv SpecChange SpecCov Curv2_P CurvRun_P Cov3_P Cov4_P Head_P ExWorld ExForm Witness_World_P Witness_History_P Witness_Calc_P Witness_Curv_P Witness_Norm_P Witness_Change_P Witness_Form_P.
From Verif Require Import SpecHead SpecForm.
Local Open Scope nat_scope.

(** V("c") @ (CovariantD("c") @ V("b")) + 2 * V("b") *)
Definition ex_headed : @headed PolyOps := HAdd (HTimes 3 ["c"%string] HHere) (FScale (pz 2 : @K PolyOps) (ex_v "b"%string)).
Definition ex_head_conf (t : oid) : list Z := if t =? 5 then [-1; 1]%Z else ex_conf t.

Lemma ex_head_all :
  metric_session ex_form_w 3 2 0 "g" (g_syms ex_geo3 0) (g_G ex_geo3 0) (g_Gi ex_geo3 0) /\
  known_results 3 (g_syms ex_geo3 0) (g_G ex_geo3 0) (g_Gi ex_geo3 0) ex_form_w 2 0 "g" /\
  ~ named ex_form_w "TEMP" 3 /\ free_letters all_symbols ["c"; "b"]%string /\
  exists h T, tensor_value ex_form_w 3 2 0 3 [1]%Z h /\
    (forall k idx, k < 3 -> in_range 3 1 idx ->
       keq (act 3 (map (conv (g_G ex_geo3 0) (g_Gi ex_geo3 0) (-1)%Z) (ex_head_conf 5)) (T 5) (k :: idx))
           (covariant_of 3 (cx (g_syms ex_geo3 0)) (Gam 3 (g_syms ex_geo3 0) (g_G ex_geo3 0) (g_Gi ex_geo3 0)) [1]%Z h k idx)) /\
    (forall t, In t (others ex_headed) -> ~ named ex_form_w "TEMP" t /\
       operand ex_form_w 3 2 0 (g_G ex_geo3 0) (g_Gi ex_geo3 0) t (ex_head_conf t)
         (act 3 (map (conv (g_G ex_geo3 0) (g_Gi ex_geo3 0) (-1)%Z) (ex_head_conf t)) (T t))) /\
    plain_left ex_headed /\ well_formed ex_head_conf (starting 5 ["c"; "b"]%string ex_headed) /\
    free_syms (starting 5 ["c"; "b"]%string ex_headed) = ["b"%string] /\ free_cfg ex_head_conf (starting 5 ["c"; "b"]%string ex_headed) = [1]%Z.
Proof.
  assert (NT : ~ named ex_form_w "TEMP" 3).
  { apply (names_free_spec ex_form_w ["TEMP"%string]); [vmtrue|left; reflexivity|]. apply inb_list_spec. vmtrue. }
  assert (HS := ex_form_session).
  assert (O3 : operand ex_form_w 3 2 0 (g_G ex_geo3 0) (g_Gi ex_geo3 0) 3 [1]%Z (with_indices ex_geo3 0 [1]%Z (ex_cov 3 0))).
  { apply (ex_operand 3). cbn. tauto. }
  split; [exact HS|]. split; [apply known_none; vmtrue|]. split; [exact NT|]. split.
  { apply default_letters, letters_free. cbn. lia. }
  set (h := with_indices ex_geo3 0 [1]%Z (ex_cov 3 0)).
  assert (V2 : valid_cfg [-1; 1]%Z) by (apply Forall_cons; [auto|apply Forall_cons; [auto|apply Forall_nil]]).
  destruct (lowers 3 (g_G ex_geo3 0) (g_Gi ex_geo3 0) [-1; 1]%Z
    (fun idx => covariant_of 3 (cx (g_syms ex_geo3 0)) (Gam 3 (g_syms ex_geo3 0) (g_G ex_geo3 0) (g_Gi ex_geo3 0)) [1]%Z h (nth 0 idx 0) (tl idx)))
    as (F & HF); [eapply session_inv, HS|exact V2|].
  exists h, (fun t => if t =? 5 then F else ex_cov t 0). split; [apply O3|]. split; [|split; [|split; [|split; [|split]]]].
  - intros k idx Hk [Li Hi]. apply (HF (k :: idx)). split; [cbn; congruence|]. constructor; assumption.
  - intros t Ht. assert (E : t = 3) by (cbn in Ht; intuition). subst t. split; [exact NT|exact O3].
  - split; [|exact I]. apply NoDup_cons; [intros []|apply NoDup_nil].
  - cbn [ex_headed starting well_formed]. split; [split|split].
    + split; [reflexivity|]. intros x. unfold count. cbn. destruct (String.eqb x "c"); cbn; lia.
    + split; [reflexivity|]. intros x. unfold count. cbn. destruct (String.eqb x "c"), (String.eqb x "b"); cbn; lia.
    + split; [reflexivity|]. intros x. unfold count. cbn. destruct (String.eqb x "b"); cbn; lia.
    + apply (Permutation_refl ["b"%string]).
  - reflexivity.
  - reflexivity.
Qed.

(** (2 * V("c")) @ (CovariantD("c") @ V("b")) *)
Lemma temporary_left_witness :
  exists (w : @world PolyOps) n m c name xs g gi t h,
    metric_session w n m c name xs g gi /\ known_results n xs g gi w m c name /\
    operand w n m c g gi t [1]%Z h /\ ~ named w "TEMP" t /\ free_letters all_symbols ["c"; "b"]%string /\
    exists w', (let! v := calc_call t ["c"%string] in let! a := calc_mul v (OScalar (k1 + k1)%K) in
                let! b := derivative_of all_symbols "c"%string t ["b"%string] in matmul0 a b) w = (Err EValueError, w').
Proof.
  destruct ex_head_all as (HS & HK & NT & FL & _).
  exists ex_form_w, 3, 2, 0, "g"%string, (g_syms ex_geo3 0), (g_G ex_geo3 0), (g_Gi ex_geo3 0), 3, (with_indices ex_geo3 0 [1]%Z (ex_cov 3 0)).
  split; [exact HS|]. split; [exact HK|]. split; [apply (ex_operand 3); cbn; tauto|]. split; [exact NT|]. split; [exact FL|].
  destruct (out_err (let! v := calc_call 3 ["c"%string] in let! a := calc_mul v (OScalar (k1 + k1)%K) in
                let! b := derivative_of all_symbols "c"%string 3 ["b"%string] in matmul0 a b) EValueError ex_form_w) as (w' & E & _); [vmtrue|].
  exists w'. exact E.
Qed.
