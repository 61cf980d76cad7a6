(** Properties of whole formulas: C142 - C144. *)
From Verif Require Import Alg Arr Spec TensorM WorldM SpecWorld CalcM SpecCalc CurvM SpecCurv SpecChange SpecForm FormTop_P FormGeo_P Inst Ex ExWorld ExForm Witness_Form_P.
Local Open Scope nat_scope.

Section Form.
Context {A : AlgOps} {L : AlgLaws A} {DL : DiffLaws A} {SL : SubsLaws A} {IL : InvLaws A}.

(** C142.  Formulas of any size.  [T t] are the covariant components of the tensor [t]. *)
Theorem C142_value_of_a_formula n m c name xs g gi conf T p w :
  metric_session w n m c name xs g gi -> well_formed conf p ->
  (forall t, In t (leaves p) ->
     operand w n m c g gi t (conf t) (act n (map (conv g gi (-1)%Z) (conf t)) (T t))) ->
  exists t w', eval p w = (Ok (mkCalc (Some t) (free_syms p) RTensor), w') /\
    operand w' n m c g gi t (free_cfg conf p)
      (components_in conf n xs g gi T p (free_syms p) (free_cfg conf p)) /\
    metric_session w' n m c name xs g gi /\
    (forall q i h, operand w n m c g gi q i h -> operand w' n m c g gi q i h) /\
    only_grows (leaves p) w w'.
Proof. exact (eval_formula n m c name xs g gi conf T p w). Qed.

(** C143.  Calc(formula, name, symbol, indices). *)
Theorem C143_calc_of_a_formula n m c name xs g gi conf T p nm sy req i' w :
  metric_session w n m c name xs g gi -> well_formed conf p ->
  (forall t, In t (leaves p) ->
     operand w n m c g gi t (conf t) (act n (map (conv g gi (-1)%Z) (conf t)) (T t))) ->
  nm <> "TEMP"%string -> req = [] \/ Permutation (free_syms p) req ->
  let order := match req with [] => free_syms p | _ => req end in
  same_indices (free_syms p) (free_cfg conf p) order i' ->
  exists t w' o, (let! x := eval p in run_calc x nm sy req) w = (Ok t, w') /\
    obj_of w t = None /\ In t (insts w') /\ obj_of w' t = Some o /\
    o_name o = nm /\ o_symbol o = sy /\ cls_of w' t = Some CTensor /\
    operand w' n m c g gi t i' (components_in conf n xs g gi T p order i') /\
    metric_session w' n m c name xs g gi /\
    (forall q i h oq, obj_of w q = Some oq -> o_name oq <> "TEMP"%string ->
       operand w n m c g gi q i h -> operand w' n m c g gi q i h) /\
    only_adds_one (leaves p) t w w'.
Proof. exact (fun HS W Hl => calc_value n m c name xs g gi conf T p nm sy req i' w HS W Hl). Qed.

(** C144.  Any number of coordinate systems. *)
Theorem C144_formula_is_consistent G conf T p s :
  consistent G -> regular G -> well_formed conf p -> tensorial p ->
  algebraic p \/ own_coordinates G conf T p -> constant_factors G p ->
  (forall t, In t (leaves p) -> consistent (with_tensor G (length (conf t)) (T t))) ->
  Permutation (free_syms p) s ->
  consistent (with_tensor G (length s) (geo_formula G conf T p s)).
Proof. exact (fun HC HR W Tn Ow Kf HT => consistent_formula G conf T p HC HR W Tn Ow Kf HT s). Qed.

Theorem C144_formula_in_all_coordinates G conf T p m c name w nm sy req i' :
  consistent G -> regular G -> well_formed conf p -> tensorial p ->
  algebraic p \/ own_coordinates G conf T p -> constant_factors G p ->
  (forall t, In t (leaves p) -> consistent (with_tensor G (length (conf t)) (T t))) ->
  g_sys G c -> metric_session w (g_n G) m c name (g_syms G c) (g_G G c) (g_Gi G c) ->
  metric_represents G m w -> (forall k, g_sys G k -> ~ named w "TEMP" k) ->
  (forall t, In t (leaves p) ->
     operand w (g_n G) m c (g_G G c) (g_Gi G c) t (conf t) (with_indices G c (conf t) (T t c))) ->
  nm <> "TEMP"%string -> req = [] \/ Permutation (free_syms p) req ->
  let order := match req with [] => free_syms p | _ => req end in
  same_indices (free_syms p) (free_cfg conf p) order i' ->
  exists t w', (let! x := eval p in run_calc x nm sy req) w = (Ok t, w') /\
    represents (with_tensor G (length order) (geo_formula G conf T p order)) t m w' /\
    forall ops c' j a w'', Forall (history_op m) ops ->
      get_components t (Some c') (Some j) (after ops w') = (Ok a, w'') ->
      holds (g_n G) (length order) a (with_indices G c' j (geo_formula G conf T p order c')).
Proof.
  exact (fun HC HR W Tn Ow Kf HT Hc HS HM Ht Hl =>
    formula_everywhere G conf T p HC HR W Tn Ow Kf HT m c name w Hc HS HM Ht Hl nm sy req i').
Qed.
End Form.

Print Assumptions C142_value_of_a_formula.
Print Assumptions C143_calc_of_a_formula.
Print Assumptions C144_formula_is_consistent.
Print Assumptions C144_formula_in_all_coordinates.

Example C142_C143_C144_example :
  consistent ex_geo3 /\ regular ex_geo3 /\ well_formed ex_conf ex_formula /\ tensorial ex_formula /\
  own_coordinates ex_geo3 ex_conf ex_cov ex_formula /\ constant_factors ex_geo3 ex_formula /\
  (forall t, In t (leaves ex_formula) -> consistent (with_tensor ex_geo3 (length (ex_conf t)) (ex_cov t))) /\
  g_sys ex_geo3 0 /\
  metric_session ex_form_w 3 2 0 "g" (g_syms ex_geo3 0) (g_G ex_geo3 0) (g_Gi ex_geo3 0) /\
  metric_represents ex_geo3 2 ex_form_w /\ (forall k, g_sys ex_geo3 k -> ~ named ex_form_w "TEMP" k) /\
  (forall t, In t (leaves ex_formula) ->
     operand ex_form_w 3 2 0 (g_G ex_geo3 0) (g_Gi ex_geo3 0) t (ex_conf t) (with_indices ex_geo3 0 (ex_conf t) (ex_cov t 0))) /\
  free_syms ex_formula = ["b"%string] /\ same_indices ["b"%string] (free_cfg ex_conf ex_formula) ["b"%string] [1]%Z /\
  ~ keq (geo_formula ex_geo3 ex_conf ex_cov ex_formula ["b"%string] 1 [0]) k0.
Proof. exact ex_form_all. Qed.
