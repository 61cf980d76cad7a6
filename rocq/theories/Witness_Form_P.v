(** A concrete formula in two coordinate systems. *)
From Coq Require Import QArith Qcanon Permutation.
From Verif Require Import Alg Alg_P Arr Arr_P Spec UtilsM Arr2_P Act_P TensorM RL_P Tensor_P Jacobian_P Inst Ex WorldM SpecWorld World_P Registry_P Geo_P History_P CalcM SpecCalc Calc_P CurvM SpecCurv SpecChange SpecForm CurvCov2_P CurvCov3_P CurvCov4_P ExWorld ExForm Witness_Tensor_P Witness_World_P Witness_History_P Witness_Calc_P Witness_Curv_P Witness_Norm_P Witness_Change_P.
Local Open Scope nat_scope.

Lemma ex_leaves t : In t (leaves ex_formula) -> t = 3 \/ t = 4.
Proof. cbn. intuition. Qed.

Lemma with_consistent r (T : oid -> list nat -> @K PolyOps) : covariant_law ex_geo3 r 0 1 ex_rules3 (T 0) (T 1) -> covariant_law ex_geo3 r 1 0 ex_back3 (T 1) (T 0) ->
  consistent (with_tensor ex_geo3 r T).
Proof.
  intros H1 H2. destruct ex_geo3_consistent as (C1 & C2 & C3). split; [exact C1|]. split; [exact C2|].
  intros c c' R Hc HR. destruct (C3 c c' R Hc HR) as (A1 & A2 & A3 & A4). split; [exact A1|]. split; [exact A2|]. split; [|exact A4].
  destruct Hc as [-> | ->]; cbn in HR.
  - destruct c' as [|[|c']]; cbn in HR; try discriminate. injection HR as <-. exact H1.
  - destruct c' as [|c']; cbn in HR; try discriminate. injection HR as <-. exact H2.
Qed.
Lemma ex_leaf_consistent t : In t (leaves ex_formula) -> consistent (with_tensor ex_geo3 (length (ex_conf t)) (ex_cov t)).
Proof. intros Ht. destruct (ex_leaves t Ht) as [-> | ->]; (apply with_consistent; apply lawb_spec; vmtrue). Qed.

Definition free_ofb (ys : list string) (r : nat) (f : list nat -> pexp) : bool :=
  forallb (fun y => forallb (fun idx => pisz (@kdiff PolyOps y (f idx))) (all_idx (repeat 3 r))) ys.
Lemma free_ofb_spec ys r f : free_ofb ys r f = true -> without_symbols (A := PolyOps) 3 ys r f.
Proof.
  intros H y idx Hy Hi. unfold free_ofb in H. rewrite forallb_forall in H. specialize (H y Hy). rewrite forallb_forall in H.
  apply pisz_ok, H, in_all_idx. apply (proj2 (inb_rng 3 r idx)), Hi.
Qed.
Lemma ex_own : own_coordinates ex_geo3 ex_conf ex_cov ex_formula.
Proof.
  intros c c' R Hc HR. split.
  - intros t Ht. destruct Hc as [-> | ->]; cbn in HR.
    + destruct c' as [|[|c']]; cbn in HR; try discriminate. destruct (ex_leaves t Ht) as [-> | ->]; apply free_ofb_spec; vmtrue.
    + destruct c' as [|c']; cbn in HR; try discriminate. destruct (ex_leaves t Ht) as [-> | ->]; apply free_ofb_spec; vmtrue.
  - intros k y Hk _. cbn in Hk. destruct Hk as [<-|[<-|[]]]; apply pisz_ok; reflexivity.
Qed.
Lemma ex_constant : constant_factors ex_geo3 ex_formula.
Proof.
  intros c c' R k Hc HR Hk. assert (E : R = ex_rules3 \/ R = ex_back3).
  { destruct Hc as [-> | ->]; cbn in HR; [destruct c' as [|[|c']]|destruct c' as [|c']]; cbn in HR; try discriminate; injection HR as <-; auto. }
  destruct E as [-> | ->]; cbn in Hk; destruct Hk as [<-|[<-|[]]]; apply same_poly_spec; vmtrue.
Qed.

Lemma ex_form_reachable : reachable ex_form_w.
Proof. apply run_all_reachable; [apply ex_change_reachable|vmtrue]. Qed.
Lemma ex_form_session : metric_session ex_form_w 3 2 0 "g" (g_syms ex_geo3 0) (g_G ex_geo3 0) (g_Gi ex_geo3 0).
Proof. apply sessionb_spec; [apply ex_form_reachable|vmtrue]. Qed.

Lemma ex_form_represents : metric_represents ex_geo3 2 ex_form_w.
Proof.
  assert (SysIn : forall c, In c [0; 1] -> g_sys ex_geo3 c) by (intros c [<-|[<-|[]]]; cbn; auto).
  split; [apply typedb_spec; vmtrue|]. split; [apply clsb_spec; vmtrue|]. split.
  - assert (H : obj_view ex_form_w 2 (fun o => (o_rank o =? 2) && cfg_eqb (o_indices o) [-1; -1]%Z && opt_eqb (o_coords o) 0 &&
       storedb ex_geo3 [0; 1] 2 (fun c => mat_comps (g_G ex_geo3 c)) o) false = true) by vmtrue.
    unfold obj_view in H. destruct (obj_of ex_form_w 2) as [o|]; [|discriminate H]. exists o. split; [reflexivity|].
    apply andb_prop in H as [H H4]. apply andb_prop in H as [H H3]. apply andb_prop in H as [H1 H2].
    apply Nat.eqb_eq in H1. apply cfg_eqb_spec in H2. apply opt_eqb_spec in H3.
    split; [exact H1|]. split; [left; exact H2|]. split; [exists 0; split; [exact H3|left; reflexivity]|].
    apply (storedb_spec _ [0; 1]); [exact H4|exact SysIn].
  - assert (V : forall c, In c [0; 1] -> obj_view ex_form_w c (fun o => o_syms o) [] = g_syms ex_geo3 c /\
      (obj_view ex_form_w c (fun o => o_trans o) [] : list (nat * list (string * pexp))) = g_rules ex_geo3 c /\
      obj_view ex_form_w c (fun o => match o_jacs o with [] => true | _ => false end) false = true /\ clsb ex_form_w c CCoordinates = true).
    { intros c [<-|[<-|[]]]; (split; [vm_compute; reflexivity|]; split; [vm_compute; reflexivity|]; split; vmtrue). }
    intros c Hc. assert (Hc' : In c [0; 1]) by (destruct Hc as [-> | ->]; cbn; auto).
    destruct (V c Hc') as (V1 & V2 & V3 & V4). apply clsb_spec in V4. split; [exact V4|].
    unfold obj_view in V1, V2, V3. destruct (obj_of ex_form_w c) as [o|]; [|discriminate V3]. exists o. split; [reflexivity|].
    split; [exact V1|]. split; [exact V2|]. destruct (o_jacs o); [|discriminate V3]. intros c' j Hj. discriminate Hj.
Qed.
Lemma ex_form_temp k : g_sys ex_geo3 k -> ~ named ex_form_w "TEMP" k.
Proof.
  intros Hk. apply (names_free_spec ex_form_w ["TEMP"%string]); [vmtrue|left; reflexivity|].
  apply inb_list_spec. destruct Hk as [-> | ->]; vmtrue.
Qed.

Lemma operand_view w n m c (g gi : nat -> nat -> @K PolyOps) t i h : clsb w t CTensor = true ->
  obj_view w t (fun o => opt_eqb (o_metric o) m && cfg_eqb (o_indices o) i && (o_rank o =? length i) && opt_eqb (o_coords o) c &&
    match dget Nat.eqb c (o_comps o) with Some d => match dget cfg_eqb i d with Some a => holdsb n (length i) a h | None => false end | None => false end) false = true ->
  rightb w n c t g gi i h = true -> valid_cfg i -> i <> [] -> operand w n m c g gi t i h.
Proof.
  intros Hk H R V Ni. assert (TV := value_view w n m c t i CTensor h ltac:(discriminate) Hk H).
  split; [exact TV|]. split; [apply rightb_spec, R|]. split; [exact V|]. apply clsb_spec in Hk. split; [rewrite Hk; discriminate|].
  intros o Ho [R0 _]. destruct TV as (k & o' & a & _ & _ & Ho' & _ & Ei & Er & _). rewrite Ho in Ho'. injection Ho' as <-. rewrite R0 in Er. destruct i; [apply Ni; reflexivity|discriminate Er].
Qed.
Lemma ex_operand t : In t (leaves ex_formula) ->
  operand ex_form_w 3 2 0 (g_G ex_geo3 0) (g_Gi ex_geo3 0) t (ex_conf t) (with_indices ex_geo3 0 (ex_conf t) (ex_cov t 0)).
Proof.
  intros Ht. destruct (ex_leaves t Ht) as [-> | ->]; (apply operand_view; [vmtrue|vmtrue|vmtrue| |discriminate]).
  - apply Forall_cons; [auto|apply Forall_nil].
  - apply Forall_cons; [auto|apply Forall_cons; [auto|apply Forall_nil]].
Qed.

Lemma ex_well_formed : well_formed ex_conf ex_formula.
Proof.
  assert (N : forall a, well_formed ex_conf (ex_v a)).
  { intros a. split; [reflexivity|]. intros x. unfold count. cbn. destruct (String.eqb x a); cbn; lia. }
  assert (W : well_formed (A := PolyOps) ex_conf (FTensor 4 ["b"; "a"]%string)).
  { split; [reflexivity|]. intros x. unfold count. cbn. destruct (String.eqb x "b"), (String.eqb x "a"); cbn; lia. }
  cbn [ex_formula well_formed]. repeat split; try apply N; try apply W; try (apply (Permutation_refl ["b"%string])).
  - cbn. tauto.
Qed.

Lemma ex_form_all :
  consistent ex_geo3 /\ regular ex_geo3 /\ well_formed ex_conf ex_formula /\ tensorial ex_formula /\
  own_coordinates ex_geo3 ex_conf ex_cov ex_formula /\ constant_factors ex_geo3 ex_formula /\
  (forall t, In t (leaves ex_formula) -> consistent (with_tensor ex_geo3 (length (ex_conf t)) (ex_cov t))) /\
  g_sys ex_geo3 0 /\
  metric_session ex_form_w 3 2 0 "g" (g_syms ex_geo3 0) (g_G ex_geo3 0) (g_Gi ex_geo3 0) /\
  metric_represents ex_geo3 2 ex_form_w /\ (forall k, g_sys ex_geo3 k -> ~ named ex_form_w "TEMP" k) /\
  (forall t, In t (leaves ex_formula) ->
     operand ex_form_w 3 2 0 (g_G ex_geo3 0) (g_Gi ex_geo3 0) t (ex_conf t) (with_indices ex_geo3 0 (ex_conf t) (ex_cov t 0))) /\
  free_syms ex_formula = ["b"%string] /\ same_indices ["b"%string] (free_cfg ex_conf ex_formula) ["b"%string] [1]%Z /\
  ~ keq (geo_formula ex_geo3 ex_conf ex_cov ex_formula ["b"%string] 1 [0]) k0.
Proof.
  split; [exact ex_geo3_consistent|]. split; [exact ex_geo3_regular|]. split; [exact ex_well_formed|].
  split; [cbn; tauto|]. split; [exact ex_own|]. split; [exact ex_constant|]. split; [exact ex_leaf_consistent|]. split; [left; reflexivity|].
  split; [exact ex_form_session|]. split; [exact ex_form_represents|]. split; [exact ex_form_temp|]. split; [exact ex_operand|].
  split; [reflexivity|]. split; [split; [reflexivity|split; [reflexivity|intros x z; reflexivity]]|].
  destruct (differ2_spec (mret (@geo_formula PolyOps ex_geo3 ex_conf ex_cov ex_formula ["b"%string] 1 [0] : pexp, @k0 PolyOps : pexp)) ex_form_w v12) as (x & y & w' & H & N); [vmtrue|].
  apply ret_inv in H as [H _]. injection H as -> ->. exact N.
Qed.
