(** Properties of tensor formulas: C32, C36 - C46, C65, C66. *)
From Coq Require Import QArith.
From Verif Require Import Alg Arr Spec TensorM WorldM SpecWorld CalcM SpecCalc Calc_P Calc2_P Calc3_P Calc4_P Trace_P Run_P Inst Ex ExWorld Witness_Calc_P.
Local Open Scope nat_scope.

(** C32.  The property is false: the sum V + V + V + V + V leaves a temporary tensor behind. *)
Theorem C32_leftover_temporaries_refuted :
  exists (w : @world PolyOps) t x w0 y1 w1 y2 w2 y3 w3 y4 w4 r w5 i,
  reachable w /\ calc_call t ["a"]%string w = (Ok x, w0) /\
  calc_add x (OCalc x) w0 = (Ok y1, w1) /\ calc_add y1 (OCalc x) w1 = (Ok y2, w2) /\
  calc_add y2 (OCalc x) w2 = (Ok y3, w3) /\ calc_add y3 (OCalc x) w3 = (Ok y4, w4) /\
  run_calc y4 "R" "R" [] w4 = (Ok r, w5) /\
  In i (insts w5) /\ ~ In i (insts w) /\ named w5 "TEMP" i.
Proof. exact leftover_witness. Qed.
Print Assumptions C32_leftover_temporaries_refuted.

(** C36.  The property is false: Calc removes a tensor that the user named "TEMP". *)
Theorem C36_user_tensor_removed_refuted :
  exists (w : @world PolyOps) t i x w0 r w1,
  reachable w /\ cls_of w i = Some CTensor /\ In i (insts w) /\ calc_call t ["a"]%string w = (Ok x, w0) /\ In i (insts w0) /\
  run_calc x "R" "R" [] w0 = (Ok r, w1) /\ ~ In i (insts w1).
Proof. exact user_temp_witness. Qed.
Print Assumptions C36_user_tensor_removed_refuted.

Section Calc.
Context {A : AlgOps} {L : AlgLaws A} {D : DiffLaws A}.

(** C37.  The right operand is read in the coordinates of the left one, in the configuration
    that gives each symbol the position it has there. *)
Theorem C37_sum_of_labelled_components w x y t1 o1 t2 o2 m c n i2 a1 w1 a2 w2 :
  typed w -> labelled w x t1 o1 -> labelled w y t2 o2 ->
  o_metric o1 = Some m -> o_metric o2 = Some m -> o_coords o1 = Some c -> coordinate_system w c n ->
  Permutation (c_syms x) (c_syms y) -> same_indices (c_syms x) (o_indices o1) (c_syms y) i2 ->
  get_components t1 (Some c) (Some (o_indices o1)) w = (Ok a1, w1) ->
  get_components t2 (Some c) (Some i2) w1 = (Ok a2, w2) ->
  cubic n a1 -> rank a1 = o_rank o1 -> cubic n a2 -> rank a2 = o_rank o2 ->
  exists z w' a, calc_add x (OCalc y) w = (Ok z, w') /\
    result_is w' z (c_syms x) m c (o_indices o1) a /\ cubic n a /\
    forall f, (forall s, In s (c_syms x) -> f s < n) ->
      keq (aget a (map f (c_syms x))) (kadd (aget a1 (map f (c_syms x))) (aget a2 (map f (c_syms y)))).
Proof. exact (add_values w x y t1 o1 t2 o2 m c n i2 a1 w1 a2 w2). Qed.

(** C38 *)
Theorem C38_adding_zero x w : calc_add x OZero w = (Ok x, w) /\ calc_radd x OZero w = (Ok x, w).
Proof. exact (add_zero x w). Qed.
Theorem C38_adding_other_things x w y :
  (exists k, y = OScalar k) \/ y = OOther -> calc_add x y w = (Err ETypeError, w).
Proof. exact (add_type x w y). Qed.
Theorem C38_adding_derivatives x y w :
  c_role x <> RTensor \/ c_role y <> RTensor -> calc_add x (OCalc y) w = (Err EValueError, w).
Proof. exact (add_role x y w). Qed.
Theorem C38_adding_mismatches x y t1 t2 o1 o2 w :
  c_role x = RTensor -> c_role y = RTensor -> c_tensor x = Some t1 -> c_tensor y = Some t2 ->
  obj_of w t1 = Some o1 -> obj_of w t2 = Some o2 ->
  o_metric o1 <> o_metric o2 \/ o_rank o1 <> o_rank o2 \/
    (c_syms x <> [] /\ c_syms y <> [] /\ ~ Permutation (c_syms x) (c_syms y)) ->
  calc_add x (OCalc y) w = (Err EValueError, w).
Proof. exact (add_mismatch x y t1 t2 o1 o2 w). Qed.

(** C40, tensors with indices *)
Theorem C40_product_sums_over_shared_symbols w x y t1 o1 t2 o2 m c n i2 a1 w1 a2 w2 :
  typed w -> labelled w x t1 o1 -> labelled w y t2 o2 -> 1 <= n ->
  o_metric o1 = Some m -> o_metric o2 = Some m -> o_coords o1 = Some c -> o_coords o2 = Some c -> coordinate_system w c n ->
  0 < o_rank o1 -> 0 < o_rank o2 ->
  opposite (c_syms x) (o_indices o1) (c_syms y) (o_indices o2) i2 ->
  get_components t1 (Some c) (Some (o_indices o1)) w = (Ok a1, w1) ->
  get_components t2 (Some c) (Some i2) w1 = (Ok a2, w2) ->
  cubic n a1 -> rank a1 = o_rank o1 -> cubic n a2 -> rank a2 = o_rank o2 ->
  let s1 := c_syms x in let s2 := c_syms y in let free := without s1 s2 ++ without s2 s1 in
  exists z w' a, matmul x y w = (Ok z, w') /\
    result_is w' z free m c (indices_without s1 (o_indices o1) s2 ++ indices_without s2 (o_indices o2) s1) a /\ cubic n a /\
    forall f, (forall s, In s free -> f s < n) ->
      keq (aget a (map f free))
          (lsum (tuples n (length (common s1 s2))) (fun ks =>
             kmul (aget a1 (map (assign (common s1 s2) ks f) s1)) (aget a2 (map (assign (common s1 s2) ks f) s2)))).
Proof. exact (matmul_values w x y t1 o1 t2 o2 m c n i2 a1 w1 a2 w2). Qed.

(** C40, with a scalar *)
Theorem C40_product_with_scalar w x y t1 o1 t2 o2 k1 k2 m c n a1 a2 :
  typed w -> labelled w x t1 o1 -> labelled w y t2 o2 ->
  cls_of w t1 = Some k1 -> k1 <> CCoordinates -> cls_of w t2 = Some k2 -> k2 <> CCoordinates ->
  o_metric o1 = Some m -> o_metric o2 = Some m -> coordinate_system w c n ->
  stored_default o1 c a1 -> stored_default o2 c a2 ->
  cubic n a1 -> rank a1 = o_rank o1 -> cubic n a2 -> rank a2 = o_rank o2 ->
  o_rank o1 = 0 \/ o_rank o2 = 0 ->
  exists z w' a, matmul x y w = (Ok z, w') /\
    result_is w' z (c_syms x ++ c_syms y) m c (o_indices o1 ++ o_indices o2) a /\ cubic n a /\
    forall f, (forall s, In s (c_syms x ++ c_syms y) -> f s < n) ->
      keq (aget a (map f (c_syms x ++ c_syms y))) (kmul (aget a1 (map f (c_syms x))) (aget a2 (map f (c_syms y)))).
Proof. exact (matmul_scalar_values w x y t1 o1 t2 o2 k1 k2 m c n a1 a2). Qed.

(** C42.  D lists the repeated symbols. *)
Theorem C42_repeated_symbols_are_traces w t k o m om c n G a s :
  1 <= n -> typed w -> cls_of w t = Some k -> k <> CCoordinates -> obj_of w t = Some o -> stored_default o c a ->
  cubic n a -> rank a = length (o_indices o) -> o_rank o = length (o_indices o) -> valid_cfg (o_indices o) ->
  length s = length (o_indices o) ->
  o_metric o = Some m -> obj_of w m = Some om -> metric_tables n om c G -> coordinate_system w c n ->
  (forall x, count String.eqb x s <= 2) ->
  exists D z w' t' o' b, calc_call t s w = (Ok z, w') /\
    NoDup D /\ (forall x, In x D <-> count String.eqb x s = 2) /\
    z = mkCalc (Some t') (without s D) RTensor /\ obj_of w' t' = Some o' /\ o_metric o' = Some m /\
    o_indices o' = indices_without s (o_indices o) D /\ o_rank o' = length (o_indices o') /\ stored_default o' c b /\
    cubic n b /\ rank b = length (o_indices o') /\
    forall f, (forall x, In x (without s D) -> f x < n) ->
      keq (aget b (map f (without s D)))
          (lsum (tuples n (length D)) (fun ks => lsum (tuples n (length D)) (fun ls =>
             kmul (trace_factor s (o_indices o) G D ks ls) (aget a (trace_index s D ks ls f))))).
Proof. exact (trace_total w t k o m om c n G a s). Qed.

Theorem C42_three_occurrences_are_rejected w t k o m om c n G a s :
  1 <= n -> typed w -> cls_of w t = Some k -> k <> CCoordinates -> obj_of w t = Some o -> stored_default o c a ->
  cubic n a -> rank a = length (o_indices o) -> o_rank o = length (o_indices o) -> valid_cfg (o_indices o) ->
  length s = length (o_indices o) ->
  o_metric o = Some m -> obj_of w m = Some om -> metric_tables n om c G -> coordinate_system w c n ->
  (exists x, 2 < count String.eqb x s) ->
  exists w', calc_call t s w = (Err EValueError, w').
Proof. exact (trace_error w t k o m om c n G a s). Qed.

(** C44, gradient *)
Theorem C44_gradient w a y t o m c n oc b w1 :
  typed w -> labelled w y t o -> 1 <= n -> ~ In a (c_syms y) ->
  o_metric o = Some m -> o_coords o = Some c -> coordinate_system w c n -> obj_of w c = Some oc -> length (o_syms oc) = n ->
  get_components t (Some c) (Some (o_indices o)) w = (Ok b, w1) -> cubic n b -> rank b = o_rank o ->
  exists d z w' r, PartialD [a] w = (Ok d, w) /\ matmul d y w = (Ok z, w') /\
    result_is w' z (a :: c_syms y) m c (-1 :: o_indices o)%Z r /\ cubic n r /\
    forall f, (forall s, In s (a :: c_syms y) -> f s < n) ->
      keq (aget r (map f (a :: c_syms y))) (kdiff (nth (f a) (o_syms oc) ""%string) (aget b (map f (c_syms y)))).
Proof. exact (gradient_values w a y t o m c n oc b w1). Qed.

(** C44, divergence over the first or second index *)
Theorem C44_divergence w a y t o m c n oc p b w1 :
  typed w -> labelled w y t o -> 1 <= n -> nth_error (c_syms y) p = Some a -> p <= 1 ->
  o_metric o = Some m -> o_coords o = Some c -> coordinate_system w c n -> obj_of w c = Some oc -> length (o_syms oc) = n ->
  get_components t (Some c) (Some (set_nth p 1%Z (o_indices o))) w = (Ok b, w1) -> cubic n b -> rank b = o_rank o ->
  exists d z w' r, PartialD [a] w = (Ok d, w) /\ matmul d y w = (Ok z, w') /\
    result_is w' z (without (c_syms y) [a]) m c (indices_without (c_syms y) (o_indices o) [a]) r /\ cubic n r /\
    forall f, (forall s, In s (without (c_syms y) [a]) -> f s < n) ->
      keq (aget r (map f (without (c_syms y) [a])))
          (nsum n (fun k => kdiff (nth k (o_syms oc) ""%string) (aget b (map (assign [a] [k] f) (c_syms y))))).
Proof. exact (divergence_values w a y t o m c n oc p b w1). Qed.

(** C46.  Tensors that are not named "TEMP" stay as they are; everything registered
    afterwards was registered before or is the result. *)
Theorem C46_result_in_requested_order w x t o m c n a name symbol req :
  typed w -> integrity w -> temps_unused w -> ~ named w "TEMP" m -> ~ named w "TEMP" c ->
  name <> "TEMP"%string ->
  labelled w x t o -> o_metric o = Some m -> stored_default o c a -> coordinate_system w c n ->
  (exists k, cls_of w t = Some k /\ k <> CCoordinates) ->
  cubic n a -> rank a = o_rank o -> (req = [] \/ Permutation (c_syms x) req) ->
  let order := match req with [] => c_syms x | _ => req end in
  exists r o' i b w', run_calc x name symbol req w = (Ok r, w') /\
    ~ In r (insts w) /\ In r (insts w') /\ cls_of w' r = Some CTensor /\ obj_of w' r = Some o' /\
    o_name o' = name /\ o_symbol o' = symbol /\ o_metric o' = Some m /\ o_coords o' = Some c /\
    o_indices o' = i /\ o_comps o' = [(c, [(i, b)])] /\
    same_indices (c_syms x) (o_indices o) order i /\ cubic n b /\ rank b = length i /\
    (forall f, (forall s, In s order -> f s < n) -> keq (aget b (map f order)) (aget a (map f (c_syms x)))) /\
    (forall j oj, In j (insts w) -> obj_of w j = Some oj -> o_name oj <> "TEMP"%string ->
       In j (insts w') /\ obj_of w' j = Some oj) /\
    (forall j, In j (insts w') -> j = r \/ In j (insts w)).
Proof. exact (run_values w x t o m c n a name symbol req). Qed.

Theorem C46_other_orders_are_rejected x name symbol req w :
  req <> [] -> ~ Permutation (c_syms x) req -> run_calc x name symbol req w = (Err EValueError, w).
Proof. exact (run_error x name symbol req w). Qed.
End Calc.
Print Assumptions C37_sum_of_labelled_components.
Print Assumptions C38_adding_zero.
Print Assumptions C38_adding_other_things.
Print Assumptions C38_adding_derivatives.
Print Assumptions C38_adding_mismatches.
Print Assumptions C40_product_sums_over_shared_symbols.
Print Assumptions C40_product_with_scalar.
Print Assumptions C42_repeated_symbols_are_traces.
Print Assumptions C42_three_occurrences_are_rejected.
Print Assumptions C44_gradient.
Print Assumptions C44_divergence.
Print Assumptions C46_result_in_requested_order.
Print Assumptions C46_other_orders_are_rejected.

Example C37_example :
  typed ex_calc_w /\
  exists o1 o2 a1 w1 a2 w2,
    labelled ex_calc_w ex_C 8 o1 /\ labelled ex_calc_w ex_B 7 o2 /\
    o_metric o1 = Some 2 /\ o_metric o2 = Some 2 /\ o_coords o1 = Some 0 /\ coordinate_system ex_calc_w 0 2 /\
    Permutation (c_syms ex_C) (c_syms ex_B) /\ same_indices (c_syms ex_C) (o_indices o1) (c_syms ex_B) [-1; 1]%Z /\
    get_components 8 (Some 0) (Some (o_indices o1)) ex_calc_w = (Ok a1, w1) /\
    get_components 7 (Some 0) (Some [-1; 1]%Z) w1 = (Ok a2, w2) /\
    cubic 2 a1 /\ rank a1 = o_rank o1 /\ cubic 2 a2 /\ rank a2 = o_rank o2.
Proof. exact ex_add_hyps. Qed.

Example C38_example :
  ~ Permutation (c_syms ex_C) ["a"; "c"]%string /\ c_role (mkCalc None ["a"]%string RPartial) <> RTensor.
Proof. exact ex_mismatch. Qed.

Example C40_example :
  typed ex_calc_w /\
  exists o1 o2 a1 w1 a2 w2,
    labelled ex_calc_w ex_V 3 o1 /\ labelled ex_calc_w ex_R 5 o2 /\
    o_metric o1 = Some 2 /\ o_metric o2 = Some 2 /\ o_coords o1 = Some 0 /\ o_coords o2 = Some 0 /\ coordinate_system ex_calc_w 0 2 /\
    0 < o_rank o1 /\ 0 < o_rank o2 /\
    opposite (c_syms ex_V) (o_indices o1) (c_syms ex_R) (o_indices o2) [-1; 1; 1]%Z /\
    get_components 3 (Some 0) (Some (o_indices o1)) ex_calc_w = (Ok a1, w1) /\
    get_components 5 (Some 0) (Some [-1; 1; 1]%Z) w1 = (Ok a2, w2) /\
    cubic 2 a1 /\ rank a1 = o_rank o1 /\ cubic 2 a2 /\ rank a2 = o_rank o2.
Proof. exact ex_matmul_hyps. Qed.

Example C42_example :
  typed ex_calc_w /\
  exists o om G a, cls_of ex_calc_w 5 = Some CTensor /\ obj_of ex_calc_w 5 = Some o /\ stored_default o 0 a /\ cubic 2 a /\
    rank a = length (o_indices o) /\ o_rank o = length (o_indices o) /\ valid_cfg (o_indices o) /\
    length ["a"; "a"; "b"]%string = length (o_indices o) /\
    o_metric o = Some 2 /\ obj_of ex_calc_w 2 = Some om /\ metric_tables 2 om 0 G /\ coordinate_system ex_calc_w 0 2.
Proof. exact ex_trace_hyps. Qed.

Example C44_example :
  typed ex_calc_w /\ coordinate_system ex_calc_w 0 2 /\
  exists o oc a w1 b w2, labelled ex_calc_w ex_C 8 o /\ o_metric o = Some 2 /\ o_coords o = Some 0 /\
    obj_of ex_calc_w 0 = Some oc /\ length (o_syms oc) = 2 /\ ~ In "c"%string (c_syms ex_C) /\ nth_error (c_syms ex_C) 1 = Some "b"%string /\
    get_components 8 (Some 0) (Some (o_indices o)) ex_calc_w = (Ok a, w1) /\ cubic 2 a /\ rank a = o_rank o /\
    get_components 8 (Some 0) (Some (set_nth 1 1%Z (o_indices o))) ex_calc_w = (Ok b, w2) /\ cubic 2 b /\ rank b = o_rank o.
Proof. exact ex_derivative_hyps. Qed.

Example C46_example :
  typed ex_calc_w /\ integrity ex_calc_w /\ temps_unused ex_calc_w /\ ~ named ex_calc_w "TEMP" 2 /\ ~ named ex_calc_w "TEMP" 0 /\
  exists o a, labelled ex_calc_w ex_C 8 o /\ o_metric o = Some 2 /\ stored_default o 0 a /\ coordinate_system ex_calc_w 0 2 /\
    cls_of ex_calc_w 8 = Some CTensor /\ cubic 2 a /\ rank a = o_rank o /\ Permutation (c_syms ex_C) ["b"; "a"]%string.
Proof. exact ex_run_hyps. Qed.

(** C39.  The property is false: 1 - x returns -x. *)
Theorem C39_subtraction_from_number_refuted :
  exists (w : @world PolyOps) t x w1 k z w2,
  reachable w /\ calc_call t ["a"]%string w = (Ok x, w1) /\ ~ keq k k0 /\ calc_rsub x (OScalar k) w1 = (Ok z, w2).
Proof. exact number_minus_witness. Qed.
Print Assumptions C39_subtraction_from_number_refuted.

(** C41.  The property is false: the product of a vector in x, y and a covector stored in
    u, v multiplies the numbers of different coordinates. *)
Theorem C41_product_mixes_coordinates_refuted :
  exists (w : @world PolyOps) t1 t2 x w1 y w2 z w3 tz r w4 o c a1 w5 a2 w6,
  reachable w /\ calc_call t1 ["a"]%string w = (Ok x, w1) /\ calc_call t2 ["a"]%string w1 = (Ok y, w2) /\
  matmul x y w2 = (Ok z, w3) /\ c_tensor z = Some tz /\ get_components tz None None w3 = (Ok r, w4) /\
  obj_of w4 tz = Some o /\ o_coords o = Some c /\
  get_components t1 (Some c) (Some [1]%Z) w4 = (Ok a1, w5) /\
  get_components t2 (Some c) (Some [-1]%Z) w5 = (Ok a2, w6) /\
  ~ keq (aget r []) (nsum 2 (fun k => kmul (aget a1 [k]) (aget a2 [k]))).
Proof. exact mixed_coordinates_witness. Qed.
Print Assumptions C41_product_mixes_coordinates_refuted.

(** C43.  The property is false: the trace of a tensor whose default coordinates are not
    those of the metric uses the metric in the wrong coordinates. *)
Theorem C43_trace_mixes_coordinates_refuted :
  exists (w : @world PolyOps) t m o c x w1 tx r w2 g w3 a w4,
  reachable w /\ obj_of w t = Some o /\ o_coords o = Some c /\ o_metric o = Some m /\
  calc_call t ["a"; "a"]%string w = (Ok x, w1) /\ c_tensor x = Some tx /\ get_components tx None None w1 = (Ok r, w2) /\
  get_components m (Some c) (Some [-1; -1]%Z) w2 = (Ok g, w3) /\ get_components t (Some c) (Some [1; 1]%Z) w3 = (Ok a, w4) /\
  ~ keq (aget r []) (nsum 2 (fun k => nsum 2 (fun l => kmul (aget g [k; l]) (aget a [k; l])))).
Proof. exact trace_coordinates_witness. Qed.
Print Assumptions C43_trace_mixes_coordinates_refuted.

(** C44.  As stated the property is false: the divergence over a third index is rejected. *)
Theorem C44_divergence_over_third_index_refuted :
  exists (w : @world PolyOps) t y w1 d w2,
  reachable w /\ calc_call t ["a"; "b"; "c"]%string w = (Ok y, w1) /\ PartialD ["c"]%string w1 = (Ok d, w1) /\
  matmul d y w1 = (Err EValueError, w2).
Proof. exact divergence_witness. Qed.
Print Assumptions C44_divergence_over_third_index_refuted.

(** C45.  The property is false. *)
Theorem C45_derivative_on_the_right_refuted :
  exists (w : @world PolyOps) t x w0 d z1 w1 z2 w2 t1 r1 w3 t2 r2 w4 f,
  reachable w /\ calc_call t ["b"]%string w = (Ok x, w0) /\ PartialD ["a"]%string w0 = (Ok d, w0) /\
  matmul d x w0 = (Ok z1, w1) /\ matmul x d w1 = (Ok z2, w2) /\
  c_tensor z1 = Some t1 /\ get_components t1 None None w2 = (Ok r1, w3) /\
  c_tensor z2 = Some t2 /\ get_components t2 None None w3 = (Ok r2, w4) /\
  Permutation (c_syms z1) (c_syms z2) /\
  ~ keq (aget r1 (map f (c_syms z1))) (aget r2 (map f (c_syms z2))).
Proof. exact right_derivative_witness. Qed.
Print Assumptions C45_derivative_on_the_right_refuted.

(** C65.  The property is false: a vector takes two index symbols. *)
Theorem C65_symbol_count_refuted :
  exists (w : @world PolyOps) t o x w1,
  reachable w /\ obj_of w t = Some o /\ o_rank o = 1 /\ calc_call t ["a"; "b"]%string w = (Ok x, w1).
Proof. exact symbol_count_witness. Qed.
Print Assumptions C65_symbol_count_refuted.

(** C66.  The property is false: the covariant derivative of a sum fails, that of a tensor
    does not. *)
Theorem C66_covariant_derivative_of_sum_refuted :
  exists (w : @world PolyOps) t x w0 y w1 d w2,
  reachable w /\ calc_call t ["a"]%string w = (Ok x, w0) /\ calc_add x (OCalc x) w0 = (Ok y, w1) /\
  CovariantD ["b"]%string w1 = (Ok d, w1) /\ matmul d y w1 = (Err EAttributeError, w2) /\
  exists z w3, matmul d x w1 = (Ok z, w3).
Proof. exact covariant_sum_witness. Qed.
Print Assumptions C66_covariant_derivative_of_sum_refuted.
