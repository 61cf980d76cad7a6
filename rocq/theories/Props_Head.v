(** Properties of formulas that contain one covariant derivative: C185. *)
From Verif Require Import Alg Arr Spec TensorM WorldM SpecWorld CalcM SpecCalc CurvM SpecCurv SpecCov Head_P Inst Ex ExWorld ExForm Witness_Head_P.
From Verif Require Import SpecHead SpecForm.
Local Open Scope nat_scope.

Section Head.
Context {A : AlgOps} {L : AlgLaws A} {D : DiffLaws A}.
Variables (n : nat) (m c : oid) (name : string) (xs : list string) (g gi : nat -> nat -> K).
(** [conf t] and [T t] are the configuration and the covariant components of the tensor [t]; the
    number [d] stands for the derivative. *)
Variables (conf : oid -> list Z) (T : oid -> list nat -> K).
Notation session w := (metric_session w n m c name xs g gi).
Notation known w := (known_results n xs g gi w m c name).
Notation raised t := (act n (map (conv g gi (-1)%Z) (conf t)) (T t)).
Notation Gam := (Gam n xs g gi).

(** C185.  Whatever is evaluated first: if it [yields] a tensor, the formula has its value. *)
Theorem C185_formula_from_a_result q names s i f w d x :
  session w -> yields n xs g gi q m c name names s i f w -> NoDup s -> length s = length i -> valid_cfg i ->
  conf d = i -> (forall idx, in_range n (length i) idx -> keq (raised d idx) (f idx)) ->
  well_formed conf (starting d s x) -> plain_left x ->
  (forall t, In t (others x) -> ~ named w "TEMP" t /\ operand w n m c g gi t (conf t) (raised t)) ->
  exists t w', eval_headed q x w = (Ok (mkCalc (Some t) (free_syms (starting d s x)) RTensor), w') /\
    operand w' n m c g gi t (free_cfg conf (starting d s x))
      (components_in conf n xs g gi T (starting d s x) (free_syms (starting d s x)) (free_cfg conf (starting d s x))) /\
    session w' /\
    (forall y j h o, obj_of w y = Some o -> o_name o <> "TEMP"%string ->
       operand w n m c g gi y j h -> operand w' n m c g gi y j h) /\
    only_adds_and_grows (others x) ("TEMP"%string :: names) w w'.
Proof. exact (head_value n m c name xs g gi conf T q names s i f w d x). Qed.

(** Calc of a formula with CovariantD("a") @ T("..."), without a repeated symbol. *)
Theorem C185_calc_from_a_covariant_derivative letters a t syms i h w d x :
  session w -> known w -> tensor_value w n m c t i h -> ~ named w "TEMP" t -> valid_cfg i ->
  NoDup (a :: syms) -> length syms = length i -> free_letters letters (a :: syms) ->
  conf d = (-1 :: i)%Z ->
  (forall k idx, k < n -> in_range n (length i) idx ->
     keq (raised d (k :: idx)) (covariant_of n (cx xs) Gam i h k idx)) ->
  well_formed conf (starting d (a :: syms) x) -> plain_left x ->
  (forall t, In t (others x) -> ~ named w "TEMP" t /\ operand w n m c g gi t (conf t) (raised t)) ->
  forall nm sy req i', nm <> "TEMP"%string -> req = [] \/ Permutation (free_syms (starting d (a :: syms) x)) req ->
  let p := starting d (a :: syms) x in
  let order := match req with [] => free_syms p | _ => req end in
  same_indices (free_syms p) (free_cfg conf p) order i' ->
  exists t' w' o, (let! z := eval_headed (derivative_of letters a t syms) x in run_calc z nm sy req) w = (Ok t', w') /\
    In t' (insts w') /\ (forall o0, obj_of w t' = Some o0 -> o_name o0 = "TEMP"%string) /\
    obj_of w' t' = Some o /\ o_name o = nm /\ o_symbol o = sy /\ cls_of w' t' = Some CTensor /\
    operand w' n m c g gi t' i' (components_in conf n xs g gi T p order i') /\ session w' /\
    (forall y j h o, obj_of w y = Some o -> o_name o <> "TEMP"%string ->
       operand w n m c g gi y j h -> operand w' n m c g gi y j h) /\
    only_adds_and_grows (others x) ("TEMP"%string :: nm :: [(name ++ " Christoffel")%string]) w w'.
Proof. exact (gradient_first n m c name xs g gi conf T letters a t syms i h w d x). Qed.

(** The same for the covariant divergence CovariantD("a") @ T("..a.."). *)
Theorem C185_calc_from_a_covariant_divergence letters a t l1 l2 i h w d x :
  session w -> known w -> tensor_value w n m c t i h -> ~ named w "TEMP" t -> valid_cfg i ->
  NoDup (l1 ++ a :: l2) -> length (l1 ++ a :: l2) = length i -> free_letters letters (l1 ++ a :: l2) ->
  conf d = firstn (length l1) i ++ skipn (S (length l1)) i ->
  (forall idx, in_range n (length (l1 ++ l2)) idx ->
     keq (raised d idx) (divergence_of n (cx xs) Gam gi i h (length l1) idx)) ->
  well_formed conf (starting d (l1 ++ l2) x) -> plain_left x ->
  (forall t, In t (others x) -> ~ named w "TEMP" t /\ operand w n m c g gi t (conf t) (raised t)) ->
  forall nm sy req i', nm <> "TEMP"%string -> req = [] \/ Permutation (free_syms (starting d (l1 ++ l2) x)) req ->
  let p := starting d (l1 ++ l2) x in
  let order := match req with [] => free_syms p | _ => req end in
  same_indices (free_syms p) (free_cfg conf p) order i' ->
  exists t' w' o, (let! z := eval_headed (derivative_of letters a t (l1 ++ a :: l2)) x in run_calc z nm sy req) w = (Ok t', w') /\
    In t' (insts w') /\ (forall o0, obj_of w t' = Some o0 -> o_name o0 = "TEMP"%string) /\
    obj_of w' t' = Some o /\ o_name o = nm /\ o_symbol o = sy /\ cls_of w' t' = Some CTensor /\
    operand w' n m c g gi t' i' (components_in conf n xs g gi T p order i') /\ session w' /\
    (forall y j h o, obj_of w y = Some o -> o_name o <> "TEMP"%string ->
       operand w n m c g gi y j h -> operand w' n m c g gi y j h) /\
    only_adds_and_grows (others x) ("TEMP"%string :: nm :: [(name ++ " Christoffel")%string]) w w'.
Proof. exact (divergence_first n m c name xs g gi conf T letters a t l1 l2 i h w d x). Qed.
End Head.
Print Assumptions C185_formula_from_a_result.
Print Assumptions C185_calc_from_a_covariant_derivative.
Print Assumptions C185_calc_from_a_covariant_divergence.

(** V("c") @ (CovariantD("c") @ V("b")) + 2 * V("b") in three dimensions, with a metric that is
    not constant. *)
Example C185_example :
  metric_session ex_form_w 3 2 0 "g" (g_syms ex_geo3 0) (g_G ex_geo3 0) (g_Gi ex_geo3 0) /\
  known_results 3 (g_syms ex_geo3 0) (g_G ex_geo3 0) (g_Gi ex_geo3 0) ex_form_w 2 0 "g" /\
  ~ named ex_form_w "TEMP" 3 /\ free_letters all_symbols ["c"; "b"]%string /\
  exists h T, tensor_value ex_form_w 3 2 0 3 [1]%Z h /\
    (forall k idx, k < 3 -> in_range 3 1 idx ->
       keq (act 3 (map (conv (g_G ex_geo3 0) (g_Gi ex_geo3 0) (-1)%Z) (ex_head_conf 5)) (T 5) (k :: idx))
           (covariant_of 3 (cx (g_syms ex_geo3 0)) (Gam 3 (g_syms ex_geo3 0) (g_G ex_geo3 0) (g_Gi ex_geo3 0)) [1]%Z h k idx)) /\
    (forall t, In t (others ex_headed) -> ~ named ex_form_w "TEMP" t /\
       operand ex_form_w 3 2 0 (g_G ex_geo3 0) (g_Gi ex_geo3 0) t (ex_head_conf t)
         (act 3 (map (conv (g_G ex_geo3 0) (g_Gi ex_geo3 0) (-1)%Z) (ex_head_conf t)) (T t))) /\
    plain_left ex_headed /\ well_formed ex_head_conf (starting 5 ["c"; "b"]%string ex_headed) /\
    free_syms (starting 5 ["c"; "b"]%string ex_headed) = ["b"%string] /\ free_cfg ex_head_conf (starting 5 ["c"; "b"]%string ex_headed) = [1]%Z.
Proof. exact ex_head_all. Qed.

(** With a formula that is no plain tensor on the left the property is false: the covariant
    derivative deletes the temporary tensor of the left operand. *)
Theorem C185_formula_on_the_left_refuted :
  exists (w : @world PolyOps) n m c name xs g gi t h,
    metric_session w n m c name xs g gi /\ known_results n xs g gi w m c name /\
    operand w n m c g gi t [1]%Z h /\ ~ named w "TEMP" t /\ free_letters all_symbols ["c"; "b"]%string /\
    exists w', (let! v := calc_call t ["c"%string] in let! a := calc_mul v (OScalar (k1 + k1)%K) in
                let! b := derivative_of all_symbols "c"%string t ["b"%string] in matmul0 a b) w = (Err EValueError, w').
Proof. exact temporary_left_witness. Qed.
Print Assumptions C185_formula_on_the_left_refuted.
