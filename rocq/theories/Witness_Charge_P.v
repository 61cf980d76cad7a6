(** A plane wave with a symmetry, a symmetric tensor without divergence and an antisymmetric
    tensor. *)
From Coq Require Import QArith Qcanon Permutation.
From Verif Require Import Alg Alg_P Arr Arr_P Spec UtilsM Arr2_P Act_P TensorM Inst Ex WorldM SpecWorld World_P Registry_P CalcM SpecCalc Calc_P CurvM SpecCurv GeodM SpecGeod SpecCov SpecDeriv SpecKilling CurvRun_P Cov4_P ExWorld Witness_World_P Witness_Calc_P Witness_Curv_P Witness_Geod_P Witness_Form_P Witness_Volume_P Witness_Norm_P ExForm SpecChange Witness_Head_P.
From Verif Require Import SpecHead SpecLeib SpecForm.
Local Open Scope nat_scope.

(** 2 du dv + x^2 du^2 + dx^2 *)
Definition wave_xs : list string := ["u"; "v"; "x"]%string.
Definition wave_g : @arr PolyOps := @mkArr PolyOps [3; 3] [PMul (pv "x") (pv "x"); pz 1; pz 0; pz 1; pz 0; pz 0; pz 0; pz 0; pz 1].
Definition wave_gi : @arr PolyOps := @mkArr PolyOps [3; 3] [pz 0; pz 1; pz 0; pz 1; POpp (PMul (pv "x") (pv "x")); pz 0; pz 0; pz 0; pz 1].
(** the symmetry along u, with the index lowered (object 2) *)
Definition wave_X (k : nat) : @K PolyOps := nth k [pz 1; pz 0; pz 0] (pz 0).
Definition wave_h : @arr PolyOps := @mkArr PolyOps [3] [PMul (pv "x") (pv "x"); pz 1; pz 0].
(** x du du, without divergence (object 3) *)
Definition wave_T : @arr PolyOps := @mkArr PolyOps [3; 3] [pv "x"; pz 0; pz 0; pz 0; pz 0; pz 0; pz 0; pz 0; pz 0].
(** an antisymmetric tensor (object 4) *)
Definition wave_F : @arr PolyOps := @mkArr PolyOps [3; 3]
  [pz 0; pv "x"; PMul (pv "u") (pv "v"); POpp (pv "x"); pz 0; PMul (pv "v") (pv "v"); POpp (PMul (pv "u") (pv "v")); POpp (PMul (pv "v") (pv "v")); pz 0].
Definition wave_w : @world PolyOps := run_all
  [OpCoordinates (ex_str "UVX") (VSyms [3] wave_xs) (VTuple [1]%Z) (ex_str "x") [];
   OpMetric (ex_str "g") (VArr wave_g) (VObj 0) (VTuple [-1; -1]%Z) (ex_str "g");
   OpTensor (ex_str "X") (VArr wave_h) (VObj 1) (VObj 0) (VTuple [-1]%Z) (ex_str "X");
   OpTensor (ex_str "T") (VArr wave_T) (VObj 1) (VObj 0) (VTuple [-1; -1]%Z) (ex_str "T");
   OpTensor (ex_str "F") (VArr wave_F) (VObj 1) (VObj 0) (VTuple [1; 1]%Z) (ex_str "F")] empty_world.
Definition wave_conf (t : oid) : list Z := if t =? 2 then [-1]%Z else [-1; -1]%Z.
Definition wave_cov (t : oid) : list nat -> @K PolyOps := aget (if t =? 2 then wave_h else wave_T).
Notation wmat a := (fun i j => @aget PolyOps a [i; j]).

Lemma wave_session :
  metric_session wave_w 3 1 0 "g" wave_xs (wmat wave_g) (wmat wave_gi) /\
  known_results 3 wave_xs (wmat wave_g) (wmat wave_gi) wave_w 1 0 "g" /\
  known_curves 3 wave_xs (wmat wave_g) (wmat wave_gi) wave_w 1 0 "g" /\
  static_metric 3 wave_xs (wmat wave_g).
Proof.
  split; [apply a_sessionb_spec; [apply run_all_reachable; [apply reach_start|vmtrue]|vmtrue]|]. split; [apply a_known_none; vmtrue|].
  split; [apply curves_none; vmtrue|apply staticb_spec; vmtrue].
Qed.
Lemma wave_line (n : nat) (f h : nat -> @K PolyOps) : forallb (fun i => @a_same PolyOps (f i) (h i)) (seq 0 n) = true -> forall i, i < n -> @keq PolyOps (f i) (h i).
Proof. intros H i Hi. rewrite forallb_forall in H. apply a_same_spec, H, in_seq. lia. Qed.
Lemma wave_symmetry :
  (exists h, tensor_value wave_w 3 1 0 2 [-1]%Z h /\ without_velocities 3 wave_xs h /\ lowered_vector 3 (wmat wave_g) wave_X h) /\
  ~ named wave_w "TEMP" 2 /\
  (forall p q, p < 3 -> q < 3 -> keq (lie_metric 3 (cx wave_xs) (wmat wave_g) wave_X p q) k0) /\
  ~ keq (kdiff (cx wave_xs 2) (aget wave_h [0])) k0.
Proof.
  destruct (a_tensorb_spec wave_w 3 1 0 2 [-1]%Z ltac:(vmtrue)) as [V N]. split.
  - eexists. split; [exact V|]. split; [split|].
    + apply (wave_line 3 (fun q => kdiff "lambda" (aget (a_comps wave_w 2 0) [q])) (fun _ => k0)). vmtrue.
    + apply (a_matb_spec 3 (fun k q => kdiff (nth k wave_xs "" ++ "dot")%string (aget (a_comps wave_w 2 0) [q])) (fun _ _ => @k0 PolyOps)). vmtrue.
    + unfold lowered_vector. apply (wave_line 3 (fun q => aget (a_comps wave_w 2 0) [q])). vmtrue.
  - split; [exact N|]. split.
    + apply (a_matb_spec 3 (fun p q => @lie_metric PolyOps 3 (cx wave_xs) (wmat wave_g) wave_X p q) (fun _ _ => @k0 PolyOps)). vmtrue.
    + intros H. apply (peq_Qc _ _ (fun _ => 1%Qc)) in H. revert H. vm_compute. intros H. discriminate H.
Qed.
Lemma wave_charge :
  (exists h, tensor_value wave_w 3 1 0 4 [1; 1]%Z h /\ (forall p q, p < 3 -> q < 3 -> keq (h [p; q]) (kopp (h [q; p]))) /\
     ~ keq (kdiff (cx wave_xs 0) (h [0; 2])) k0) /\ ~ named wave_w "TEMP" 4 /\
  "J"%string <> "TEMP"%string /\ ~ In "J"%string (curvature_names "g") /\ "a"%string <> "b"%string /\ two_letters_free ["a"; "b"]%string.
Proof.
  destruct (a_tensorb_spec wave_w 3 1 0 4 [1; 1]%Z ltac:(vmtrue)) as [V N]. split.
  - eexists. split; [exact V|]. split.
    + apply (a_matb_spec 3 (fun p q => @aget PolyOps (a_comps wave_w 4 0) [p; q]) (fun p q => kopp (aget (a_comps wave_w 4 0) [q; p]))). vmtrue.
    + intros H. apply (peq_Qc _ _ (fun _ => 1%Qc)) in H. revert H. vm_compute. intros H. discriminate H.
  - split; [exact N|]. split; [discriminate|]. split; [cbn; intuition discriminate|]. split; [discriminate|apply letters_free; cbn; lia].
Qed.
Lemma wave_operand t : t = 2 \/ t = 3 ->
  operand wave_w 3 1 0 (wmat wave_g) (wmat wave_gi) t (wave_conf t)
    (act 3 (map (conv (wmat wave_g) (wmat wave_gi) (-1)%Z) (wave_conf t)) (wave_cov t)).
Proof.
  intros [-> | ->]; (apply operand_view; [vmtrue|vmtrue|vmtrue| |discriminate]).
  - apply Forall_cons; [auto|apply Forall_nil].
  - apply Forall_cons; [auto|apply Forall_cons; [auto|apply Forall_nil]].
Qed.
Lemma wave_current :
  (forall t, t = 2 \/ t = 3 -> operand wave_w 3 1 0 (wmat wave_g) (wmat wave_gi) t (wave_conf t)
    (act 3 (map (conv (wmat wave_g) (wmat wave_gi) (-1)%Z) (wave_conf t)) (wave_cov t))) /\
  length (wave_conf 3) = 2 /\ length (wave_conf 2) = 1 /\ valid_cfg (wave_conf 3) /\
  free_letters all_symbols ["a"]%string /\
  (forall i j, i < 3 -> j < 3 -> keq (wave_cov 3 [i; j]) (wave_cov 3 [j; i])) /\
  (forall i, i < 3 -> keq (nsum 3 (fun k => nsum 3 (fun s => kmul (wmat wave_gi k s)
     (covariant_of 3 (cx wave_xs) (Gam 3 wave_xs (wmat wave_g) (wmat wave_gi)) [-1; -1]%Z (wave_cov 3) k [s; i])))) k0) /\
  (forall k q, k < 3 -> q < 3 -> keq (kadd
     (covariant_of 3 (cx wave_xs) (Gam 3 wave_xs (wmat wave_g) (wmat wave_gi)) [-1]%Z (wave_cov 2) k [q])
     (covariant_of 3 (cx wave_xs) (Gam 3 wave_xs (wmat wave_g) (wmat wave_gi)) [-1]%Z (wave_cov 2) q [k])) k0) /\
  ~ keq (covariant_of 3 (cx wave_xs) (Gam 3 wave_xs (wmat wave_g) (wmat wave_gi)) [-1]%Z (wave_cov 2) 0 [2]) k0.
Proof.
  split; [exact wave_operand|]. split; [reflexivity|]. split; [reflexivity|]. split.
  { apply Forall_cons; [auto|apply Forall_cons; [auto|apply Forall_nil]]. }
  split. { apply enough_letters; [apply distinctb_spec; reflexivity|cbn; lia]. }
  split. { apply (a_matb_spec 3 (fun i j => wave_cov 3 [i; j]) (fun i j => wave_cov 3 [j; i])). vmtrue. }
  split. { apply (wave_line 3 (fun i => nsum 3 (fun k => nsum 3 (fun s => kmul (wmat wave_gi k s)
     (covariant_of 3 (cx wave_xs) (Gam 3 wave_xs (wmat wave_g) (wmat wave_gi)) [-1; -1]%Z (wave_cov 3) k [s; i])))) (fun _ => k0)). vmtrue. }
  split. { apply (a_matb_spec 3 (fun k q => kadd
     (covariant_of 3 (cx wave_xs) (Gam 3 wave_xs (wmat wave_g) (wmat wave_gi)) [-1]%Z (wave_cov 2) k [q])
     (covariant_of 3 (cx wave_xs) (Gam 3 wave_xs (wmat wave_g) (wmat wave_gi)) [-1]%Z (wave_cov 2) q [k])) (fun _ _ => @k0 PolyOps)). vmtrue. }
  intros H. apply (peq_Qc _ _ (fun _ => 1%Qc)) in H. revert H. vm_compute. intros H. discriminate H.
Qed.

(** The divergence of 2 * S("b a") @ V("c") over its second index. *)
Definition div_formula : @formula PolyOps :=
  FScale (pz 2 : @K PolyOps) (FMul (FTensor 4 ["b"; "a"]%string) (ex_v "c"%string)).
Lemma div_all :
  metric_session ex_form_w 3 2 0 "g" (g_syms ex_geo3 0) (g_G ex_geo3 0) (g_Gi ex_geo3 0) /\
  known_results 3 (g_syms ex_geo3 0) (g_G ex_geo3 0) (g_Gi ex_geo3 0) ex_form_w 2 0 "g" /\
  well_formed ex_conf div_formula /\ algebraic div_formula /\
  (forall t, In t (leaves div_formula) ->
     operand ex_form_w 3 2 0 (g_G ex_geo3 0) (g_Gi ex_geo3 0) t (ex_conf t)
       (act 3 (map (conv (g_G ex_geo3 0) (g_Gi ex_geo3 0) (-1)%Z) (ex_conf t)) (ex_cov t 0))) /\
  free_cfg ex_conf div_formula = [1; -1; 1]%Z /\ NoDup ["b"; "e"; "d"]%string /\ free_letters all_symbols ["b"; "e"; "d"]%string /\
  exists idx, ~ keq (nabla_divergence ex_conf 3 (g_syms ex_geo3 0) (g_G ex_geo3 0) (g_Gi ex_geo3 0) (fun t => ex_cov t 0) div_formula 1 idx) k0.
Proof.
  destruct ex_head_all as (HS & HK & _).
  split; [exact HS|]. split; [exact HK|]. split.
  { cbn [div_formula well_formed]. split; (split; [reflexivity|]); intros x; unfold count; cbn.
    - destruct (String.eqb x "b") eqn:E1, (String.eqb x "a") eqn:E2; cbn; lia.
    - destruct (String.eqb x "c"); cbn; lia. }
  split; [cbn; tauto|]. split.
  { intros t Ht. apply (ex_operand t). cbn in Ht |- *. tauto. }
  split; [vm_compute; reflexivity|]. split; [apply distinctb_spec; reflexivity|].
  split; [apply enough_letters; [apply distinctb_spec; reflexivity|cbn; lia]|].
  pose (v i j := @nabla_divergence PolyOps ex_conf 3 (g_syms ex_geo3 0) (g_G ex_geo3 0) (g_Gi ex_geo3 0) (fun t => ex_cov t 0) div_formula 1 [i; j]).
  exists [2; 2].
  destruct (differ2_spec (mret (v 2 2 : pexp, @k0 PolyOps : pexp)) ex_form_w v12) as (x & y & w' & H & N); [vmtrue|].
  apply ret_inv in H as [H _]. injection H as -> ->. exact N.
Qed.
