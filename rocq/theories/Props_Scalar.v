(** C113 to C120: simplification, negation, subtraction and division, functions applied to
    components, and scalars in coordinates other than those they were made in. *)
From Verif Require Import Alg Arr Spec WorldM SpecWorld CalcM SpecCalc ExportM SpecExport SpecScalar Scalar_P Inst Ex ExWorld InterpM SpecParse ExExport Witness_Calc_P Witness_Scalar_P.
Local Open Scope nat_scope.

(** C113.  Every stored component array keeps its place and its values. *)
Theorem C113_simplify_keeps_values : forall {A : AlgOps} {L : AlgLaws A} (w : world) t o c n,
  obj_of w t = Some o -> o_coords o = Some c -> coordinate_system w c n -> 0 < o_rank o ->
  exists w' o', simplify_tensor t w = (Ok tt, w') /\ replaced_object w w' t o' /\ same_attrs o o' /\ same_values (o_comps o) (o_comps o').
Proof. exact (@simplify_values). Qed.
Print Assumptions C113_simplify_keeps_values.
(** A vector with components in three coordinate systems. *)
Example C113_example : exists o, obj_of ex_scalar_w 3 = Some o /\ o_coords o = Some 1 /\ coordinate_system ex_scalar_w 1 2 /\ 0 < o_rank o /\ length (o_comps o) = 3.
Proof. exact ex_simplify_hyps. Qed.

(** C114.  False. *)
Theorem C114_simplify_scalar_refuted : exists (w : @world PolyOps) t v w1, reachable w /\ In t (insts w) /\ In v (insts w) /\
  cls_of w t = Some CTensor /\ cls_of w v = Some CTensor /\
  simplify_tensor v w = (Ok tt, w1) /\ simplify_tensor t w = (Err EValueError, w).
Proof. exact simplify_witness. Qed.
Print Assumptions C114_simplify_scalar_refuted.
(** C114, extent of the fault: no scalar can be simplified. *)
Theorem C114_no_scalar_simplifies : forall {A : AlgOps} (w : world) t o c n a,
  obj_of w t = Some o -> stored_default o c a -> coordinate_system w c n -> o_rank o = 0 ->
  simplify_tensor t w = (Err EValueError, w).
Proof. exact (@simplify_scalar). Qed.
Print Assumptions C114_no_scalar_simplifies.

(** C115.  False: the scalar [t] and the vector [v] have the same default coordinates [d], and
    there are rules from [d] to [c]. *)
Theorem C115_scalar_chain_refuted : exists (w : @world PolyOps) t v c d a b w1 w2 w3 w4, reachable w /\ In t (insts w) /\ In v (insts w) /\ In c (insts w) /\
  (exists ot ov, obj_of w t = Some ot /\ obj_of w v = Some ov /\ o_coords ot = Some d /\ o_coords ov = Some d) /\
  get_components t (Some d) (Some []) w = (Ok a, w) /\
  get_components v (Some c) None w = (Ok b, w1) /\
  get_components t (Some c) None w = (Err EAttributeError, w2) /\
  change_default_coords v c w = (Ok tt, w3) /\
  change_default_coords t c w = (Err EAttributeError, w4).
Proof. exact chain_witness. Qed.
Print Assumptions C115_scalar_chain_refuted.
(** C115, extent of the fault: a scalar whose default coordinates are not those it was made in
    has no components in any further coordinates. *)
Theorem C115_no_further_coordinates : forall {A : AlgOps} (w : world) t c c' o a,
  obj_of w t = Some o -> stored_default o c a -> o_indices o = [] -> made_elsewhere o c -> ~ In c' (map fst (o_comps o)) ->
  (forall i r w', get_components t (Some c') i w = (r, w') -> exists e, r = Err e) /\
  (forall r w', c' <> c -> change_default_coords t c' w = (r, w') -> exists e, r = Err e).
Proof. exact (fun A w t c c' o a H1 H2 H3 H4 H5 => conj (@get_elsewhere A w t c c' o a H1 H2 H3 H4 H5) (@coords_elsewhere A w t c c' o a H1 H2 H3 H4 H5)). Qed.
Theorem C115_the_error : forall {A : AlgOps} (w : world) t c c' o a,
  obj_of w t = Some o -> stored_default o c a -> o_indices o = [] -> made_elsewhere o c -> ~ In c' (map fst (o_comps o)) ->
  forall co J rules, cls_of w t = Some CTensor -> cls_of w c' = Some CCoordinates -> obj_of w c = Some co ->
  dget Nat.eqb c' (o_jacs co) = Some J -> dget Nat.eqb c' (o_trans co) = Some rules ->
  get_components t (Some c') None w = (Err EAttributeError, w).
Proof. exact (@get_elsewhere_error). Qed.
Print Assumptions C115_no_further_coordinates.
Print Assumptions C115_the_error.
Example C115_example : exists o a co J rules,
  obj_of ex_scalar_w 6 = Some o /\ stored_default o 1 a /\ o_indices o = [] /\ made_elsewhere o 1 /\ ~ In 4 (map fst (o_comps o)) /\
  cls_of ex_scalar_w 6 = Some CTensor /\ cls_of ex_scalar_w 4 = Some CCoordinates /\
  obj_of ex_scalar_w 1 = Some co /\ dget Nat.eqb 4 (o_jacs co) = Some J /\ dget Nat.eqb 4 (o_trans co) = Some rules.
Proof. exact ex_chain_hyps. Qed.

(** C116 *)
Section Arith.
Context {A : AlgOps} {L : AlgLaws A} {D : DiffLaws A}.
Section One.
Variables (w : world) (x : calc) (t : oid) (o : obj) (m c : oid) (n : nat) (a : arr).
Hypotheses (typed_session : typed w) (operand : labelled w x t o) (stored : stored_default o c a) (metric : o_metric o = Some m)
  (system : coordinate_system w c n) (array : cubic n a) (array_rank : rank a = o_rank o).

Theorem C116_negation : ~ made_elsewhere o c ->
  exists z w' b, calc_neg x w = (Ok z, w') /\ result_is w' z (c_syms x) m c (o_indices o) b /\ cubic n b /\
  forall f, (forall s, In s (c_syms x) -> f s < n) -> keq (aget b (map f (c_syms x))) (kopp (aget a (map f (c_syms x)))).
Proof. exact (neg_values w x t o m c n a typed_session operand stored metric system array array_rank). Qed.
Theorem C116_multiple k :
  exists z w' b, calc_mul x (OScalar k) w = (Ok z, w') /\ result_is w' z (c_syms x) m c (o_indices o) b /\ cubic n b /\
  forall f, (forall s, In s (c_syms x) -> f s < n) -> keq (aget b (map f (c_syms x))) (kmul k (aget a (map f (c_syms x)))).
Proof. exact (scale_values w x t o m c n a typed_session operand stored metric system array array_rank k). Qed.
(** [k] is the inverse of the divisor [y]. *)
Theorem C116_division k y : ~ made_elsewhere o c -> keq (kmul k y) k1 ->
  exists z w' b, calc_div x k w = (Ok z, w') /\ result_is w' z (c_syms x) m c (o_indices o) b /\ cubic n b /\
  forall f, (forall s, In s (c_syms x) -> f s < n) -> keq (kmul y (aget b (map f (c_syms x)))) (aget a (map f (c_syms x))).
Proof. exact (div_values w x t o m c n a typed_session operand stored metric system array array_rank k y). Qed.
End One.
Theorem C116_difference w x y t1 o1 t2 o2 k m c n a1 a2 : typed w -> labelled w x t1 o1 -> labelled w y t2 o2 ->
  cls_of w t1 = Some k -> k <> CCoordinates ->
  o_metric o1 = Some m -> o_metric o2 = Some m -> stored_default o1 c a1 -> stored_default o2 c a2 -> coordinate_system w c n ->
  Permutation (c_syms x) (c_syms y) -> same_indices (c_syms x) (o_indices o1) (c_syms y) (o_indices o2) ->
  cubic n a1 -> rank a1 = o_rank o1 -> cubic n a2 -> rank a2 = o_rank o2 -> ~ made_elsewhere o2 c ->
  exists z w' b, calc_sub x (OCalc y) w = (Ok z, w') /\ result_is w' z (c_syms x) m c (o_indices o1) b /\ cubic n b /\
  forall f, (forall s, In s (c_syms x) -> f s < n) ->
    keq (aget b (map f (c_syms x))) (ksub (aget a1 (map f (c_syms x))) (aget a2 (map f (c_syms y)))).
Proof. exact (sub_values w x y t1 o1 t2 o2 k m c n a1 a2). Qed.
(** For operands in other coordinates or configurations C37 gives the value of the sum. *)
Theorem C116_difference_is_sum w x y t1 o1 t2 o2 z w1 : labelled w x t1 o1 -> labelled w y t2 o2 -> o_rank o1 = o_rank o2 ->
  Permutation (c_syms x) (c_syms y) -> calc_neg y w = (Ok z, w1) -> calc_sub x (OCalc y) w = calc_add x (OCalc z) w1.
Proof. exact (sub_is_add w x y t1 o1 t2 o2 z w1). Qed.
End Arith.
Print Assumptions C116_negation.
Print Assumptions C116_multiple.
Print Assumptions C116_division.
Print Assumptions C116_difference.
Print Assumptions C116_difference_is_sum.
(** A scalar made in its default coordinates and a tensor of rank 2. *)
Example C116_example :
  (exists o a, labelled ex_scalar_w ex_S 5 o /\ stored_default o 0 a /\ o_metric o = Some 2 /\ cubic 2 a /\ rank a = o_rank o /\ ~ made_elsewhere o 0) /\
  typed ex_scalar_w /\ coordinate_system ex_scalar_w 0 2 /\
  typed ex_calc_w /\ coordinate_system ex_calc_w 0 2 /\
  (exists o a, labelled ex_calc_w ex_C 8 o /\ stored_default o 0 a /\ o_metric o = Some 2 /\ cubic 2 a /\ rank a = o_rank o /\ ~ made_elsewhere o 0).
Proof. exact ex_neg_hyps. Qed.
Example C116_difference_example : exists o1 o2 a1 a2,
  labelled ex_calc_w ex_C 8 o1 /\ labelled ex_calc_w ex_C 8 o2 /\ stored_default o1 0 a1 /\ stored_default o2 0 a2 /\
  same_indices (c_syms ex_C) (o_indices o1) (c_syms ex_C) (o_indices o2) /\ Permutation (c_syms ex_C) (c_syms ex_C) /\ ~ made_elsewhere o2 0.
Proof. exact ex_sub_hyps. Qed.

(** C117.  False: for a scalar [x] whose default coordinates were changed, (-1) * x has a
    value while -x, y - x and x / 1 raise TypeError. *)
Theorem C117_negation_refuted : exists (w : @world PolyOps) t u x w1 z w2 y w3, reachable w /\ In t (insts w) /\ cls_of w t = Some CTensor /\
  calc_call t [] w = (Ok x, w1) /\ calc_mul x (OScalar (kopp k1)) w1 = (Ok z, w2) /\ calc_neg x w1 = (Err ETypeError, w1) /\
  calc_call u [] w = (Ok y, w3) /\ calc_sub y (OCalc x) w1 = (Err ETypeError, w1) /\ calc_div x k1 w1 = (Err ETypeError, w1).
Proof. exact neg_witness. Qed.
Print Assumptions C117_negation_refuted.
(** C117, extent of the fault. *)
Theorem C117_moved_scalars : forall {A : AlgOps} (w : world) y t o c a, labelled w y t o -> stored_default o c a -> made_elsewhere o c ->
  calc_neg y w = (Err ETypeError, w) /\ (forall k, calc_div y k w = (Err ETypeError, w)) /\
  forall x t1 o1, labelled w x t1 o1 -> o_rank o1 = o_rank o -> calc_sub x (OCalc y) w = (Err ETypeError, w).
Proof.
  exact (fun A w y t o c a H1 H2 H3 => conj (@neg_elsewhere A w y t o c a H1 H2 H3)
    (conj (fun k => @div_elsewhere A w y t o c a H1 H2 k H3) (fun x t1 o1 H4 H5 => @sub_elsewhere A w x y t1 o1 t o c a H4 H1 H2 H5 H3))).
Qed.
Print Assumptions C117_moved_scalars.
Example C117_example : exists o a, labelled ex_scalar_w ex_Q 6 o /\ stored_default o 1 a /\ made_elsewhere o 1.
Proof. exact ex_elsewhere_hyps. Qed.

(** C118 *)
Theorem C118_function_of_components : forall {A : AlgOps} (w : world) t o c i n a w' o' f, obj_of w t = Some o ->
  get_components t (Some c) i w = (Ok a, w') -> 1 <= n -> cubic n a -> obj_of w' t = Some o' -> ~ made_elsewhere o' c ->
  exists b, get_components_with f t (Some c) i w = (Ok b, w') /\ cubic n b /\ shape b = shape a /\
    forall idx, inb (shape a) idx = true -> aget b idx = f (aget a idx).
Proof. exact (@function_general). Qed.
Theorem C118_function_of_default_components : forall {A : AlgOps} (w : world) t o c n a f, obj_of w t = Some o -> o_coords o = Some c ->
  get_components t None None w = (Ok a, w) -> 1 <= n -> cubic n a -> ~ made_elsewhere o c ->
  exists b, get_components_with f t None None w = (Ok b, w) /\ cubic n b /\ shape b = shape a /\
    forall idx, inb (shape a) idx = true -> aget b idx = f (aget a idx).
Proof. exact (@function_values). Qed.
Print Assumptions C118_function_of_components.
Print Assumptions C118_function_of_default_components.
(** A vector whose lower components in other coordinates are asked for the first time. *)
Example C118_example : exists o a w' o', obj_of ex_w 3 = Some o /\ get_components 3 (Some 1) (Some [-1]%Z) ex_w = (Ok a, w') /\ cubic 2 a /\
  obj_of w' 3 = Some o' /\ ~ made_elsewhere o' 1.
Proof. exact ex_function_hyps. Qed.

(** C119.  False. *)
Theorem C119_function_of_scalar_refuted : exists (w : @world PolyOps) t c a (f : @K PolyOps -> @K PolyOps), reachable w /\ In t (insts w) /\ cls_of w t = Some CTensor /\
  get_components t (Some c) (Some []) w = (Ok a, w) /\ get_components_with f t (Some c) (Some []) w = (Err ETypeError, w).
Proof. exact function_witness. Qed.
(** C119, extent of the fault. *)
Theorem C119_function_of_moved_scalar : forall {A : AlgOps} (w : world) t o c i a w' o' f, obj_of w t = Some o ->
  get_components t (Some c) i w = (Ok a, w') -> obj_of w' t = Some o' -> made_elsewhere o' c ->
  get_components_with f t (Some c) i w = (Err ETypeError, w').
Proof. exact (@function_elsewhere). Qed.
Print Assumptions C119_function_of_scalar_refuted.
Print Assumptions C119_function_of_moved_scalar.
Example C119_example : exists o a, obj_of ex_scalar_w 6 = Some o /\ get_components 6 (Some 1) (Some []) ex_scalar_w = (Ok a, ex_scalar_w) /\ made_elsewhere o 1.
Proof. exact ex_function_elsewhere. Qed.

(** C120.  False. *)
Theorem C120_moved_scalar_import_refuted : exists (w : @world PolyOps) t s s' w', reachable w /\ In t (insts w) /\ cls_of w t = Some CTensor /\ plain (name_in w t) /\
  export_to_string t w = (Ok s, w) /\ ends (fun f => import_from_string f s) w (Err ETypeError, w) /\
  export_all_to_string w = (Ok s', w) /\ ends (fun f => import_all_from_string f s') w (Err ETypeError, w').
Proof. exact scalar_export_witness. Qed.
Print Assumptions C120_moved_scalar_import_refuted.
