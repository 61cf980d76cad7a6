(** Properties of show, list and get_components: C149 - C153. *)
From Coq Require Import QArith String Ascii.
From Verif Require Import Alg Arr Spec TensorM WorldM SpecWorld GeodM SpecGeod CurveM SpecCurve ShowM SpecShow Show_P Inst Ex ExWorld InstCurve Witness_Curve_P Witness_Show_P.
Import List.
Local Open Scope nat_scope.

Section Tensors.
Context {A : AlgOps} {L : AlgLaws A} {D : DiffLaws A} {S : SubsLaws A} {Y : SymLaws A}.

(** C149.  [f] and [r] are the arguments function and replace, [a] the components without them. *)
Theorem C149_function_then_replace w t coords idx c n a w1 o f r :
  obtained w t coords idx c n a w1 o -> plain_argument r -> (f <> None -> ~ made_elsewhere o c) ->
  exists b, get_components_all f r t coords idx w = (Ok b, w1) /\ pointwise (fun e => substituted r (applied f e)) a b.
Proof. exact (all_values w t coords idx c n a w1 o f r). Qed.
Theorem C149_show_is_get_components w t coords idx c n a w1 o f r :
  obtained w t coords idx c n a w1 o -> plain_argument r -> (f <> None -> ~ made_elsewhere o c /\ rank a <> 1) ->
  exists b b', get_components_all f r t coords idx w = (Ok b, w1) /\ show_components f r t coords idx w = (Ok b', w1) /\
    pointwise (fun e => substituted r (applied f e)) a b /\ shown_as b b'.
Proof. exact (show_same w t coords idx c n a w1 o f r). Qed.
Theorem C149_same_errors w t coords idx e w1 f r : get_components t coords idx w = (Err e, w1) ->
  (exists o c, obj_of w t = Some o /\ asked_coords o coords c) ->
  get_components_all f r t coords idx w = (Err e, w1) /\ show_components f r t coords idx w = (Err e, w1) /\
  list_components f r t coords idx w = (Err e, w1).
Proof. exact (errors_kept w t coords idx e w1 f r). Qed.
Theorem C149_function_on_expression w t coords idx c n a w1 o f r :
  obtained w t coords idx c n a w1 o -> made_elsewhere o c ->
  get_components_all (Some f) r t coords idx w = (Err ETypeError, w1) /\
  show_components (Some f) r t coords idx w = (Err ETypeError, w1) /\
  list_components (Some f) r t coords idx w = (Err ETypeError, w1).
Proof. exact (function_on_expression w t coords idx c n a w1 o f r). Qed.

(** C150, extent: every vector in two or more dimensions. *)
Theorem C150_vectors_become_squares w t coords idx c n a w1 o f r :
  obtained w t coords idx c n a w1 o -> plain_argument r -> 2 <= n -> rank a = 1 ->
  exists b b', get_components_all (Some f) r t coords idx w = (Ok b, w1) /\ shape b = [n] /\
    show_components (Some f) r t coords idx w = (Ok b', w1) /\ shape b' = [n; n] /\
    forall i j, i < n -> j < n -> keq (aget b' [i; j]) (if j =? 0 then aget b [i] else k0).
Proof. exact (show_square w t coords idx c n a w1 o f r). Qed.

(** C151 *)
Theorem C151_list_is_get_components w t coords idx c n a w1 o f r :
  obtained w t coords idx c n a w1 o -> plain_argument r -> (f <> None -> ~ made_elsewhere o c) -> n_coordinates w1 o n ->
  exists b g, get_components_all f r t coords idx w = (Ok b, w1) /\ list_components f r t coords idx w = (Ok g, w1) /\
    pointwise (fun e => substituted r (applied f e)) a b /\ lists b g /\ (exact_zero_test -> lists_once b g).
Proof. exact (list_same w t coords idx c n a w1 o f r). Qed.
End Tensors.
Print Assumptions C149_function_then_replace.
Print Assumptions C149_show_is_get_components.
Print Assumptions C149_same_errors.
Print Assumptions C149_function_on_expression.
Print Assumptions C150_vectors_become_squares.
Print Assumptions C151_list_is_get_components.

(** C150.  False: show of a vector with a function displays a square array. *)
Theorem C150_vector_with_function_refuted : exists (w : @world PolyOps) t f b w1 b' w2,
  reachable w /\ cls_of w t = Some CTensor /\
  get_components_all (Some f) None t None None w = (Ok b, w1) /\ shape b = [2] /\
  show_components (Some f) None t None None w = (Ok b', w2) /\ shape b' = [2; 2].
Proof. exact square_witness. Qed.
Print Assumptions C150_vector_with_function_refuted.

(** The metric with the squares of its components, y being replaced by x + 1, and the vector. *)
Example C149_case : (exists a w1 o, obtained ex_w 2 None None 0 2 a w1 o /\ rank a = 2 /\ ~ made_elsewhere o 0 /\ n_coordinates w1 o 2) /\
  plain_argument (Some ex_shift).
Proof. exact ex_metric_case. Qed.
Example C150_case : exists a w1 o, obtained ex_w 3 (Some 1) None 1 2 a w1 o /\ rank a = 1.
Proof. exact ex_vector_case. Qed.
(** A scalar in coordinates other than its own. *)
Example C149_expression_case : exists (w : @world PolyOps) a w1 o, reachable w /\ obtained w 5 (Some 1) None 1 2 a w1 o /\ made_elsewhere o 1.
Proof. exact ex_expression_case. Qed.

Section Curves.
Context {A : AlgOps} {L : AlgLaws A} {D : DiffLaws A} {S : SubsLaws A} {Y : SymLaws A} {V : SelfLaws A} {N : NumSubs A} {NL : NumSubsLaws A N}.

(** C152 *)
Theorem C152_show_of_curves w t coords idx c n a w1 o oc time param p f r :
  obtained w t coords idx c n a w1 o -> obj_of w1 c = Some oc -> (if time : bool then hd_error (o_syms oc) = Some p else param = p) ->
  clear_names p (o_syms oc) -> curve_argument p (o_syms oc) r -> (f <> None -> ~ made_elsewhere o c) -> (f <> None -> rank a <> 1) ->
  exists s s' b, get_curve_all time param f r t coords idx w = (Ok b, w1) /\ show_curve time param f r t coords idx w = (Ok s', w1) /\
    pointwise (fun e => on_curve time p (o_syms oc) r (applied f e)) a s /\ shown_as s s' /\ pointwise (as_functions p (o_syms oc)) s b.
Proof. exact (curve_shown w t coords idx c n a w1 o oc time param p f r). Qed.
Theorem C152_list_of_curves w t coords idx c n a w1 o oc time param p f r :
  obtained w t coords idx c n a w1 o -> obj_of w1 c = Some oc -> (if time : bool then hd_error (o_syms oc) = Some p else param = p) ->
  clear_names p (o_syms oc) -> curve_argument p (o_syms oc) r -> (f <> None -> ~ made_elsewhere o c) -> n_coordinates w1 o n ->
  exists s g b, get_curve_all time param f r t coords idx w = (Ok b, w1) /\ list_curve time param f r t coords idx w = (Ok g, w1) /\
    pointwise (fun e => on_curve time p (o_syms oc) r (applied f e)) a s /\ lists s g /\ (exact_zero_test -> lists_once s g) /\
    pointwise (as_functions p (o_syms oc)) s b.
Proof. exact (curve_listed w t coords idx c n a w1 o oc time param p f r). Qed.

(** C150, extent: all geodesic equations in two or more dimensions. *)
Theorem C150_equations_become_squares w t coords idx c n a w1 o oc time param p f r :
  obtained w t coords idx c n a w1 o -> obj_of w1 c = Some oc -> (if time : bool then hd_error (o_syms oc) = Some p else param = p) ->
  clear_names p (o_syms oc) -> curve_argument p (o_syms oc) r -> forall h, f = Some h -> 2 <= n -> rank a = 1 ->
  exists s, show_curve time param f r t coords idx w = (Ok s, w1) /\ shape s = [n; n] /\
    forall i j, i < n -> j < n -> keq (aget s [i; j]) (if j =? 0 then on_curve time p (o_syms oc) r (h (aget a [i])) else k0).
Proof. exact (curve_square w t coords idx c n a w1 o oc time param p f r). Qed.
End Curves.
Print Assumptions C152_show_of_curves.
Print Assumptions C152_list_of_curves.
Print Assumptions C150_equations_become_squares.
(** A Lagrangian on the curve x = y^2 with its square, and geodesic equations with parameter x on
    the curve y = x^2. *)
Example C152_case : exists t w0 a w1 o oc, calc_lagrangian 1 None ex_time_w = (Ok t, w0) /\
  obtained w0 t (Some 0) None 0 2 a w1 o /\ obj_of w1 0 = Some oc /\ clear_names "lambda" (o_syms oc) /\
  curve_argument "lambda" (o_syms oc) (Some ex_parabola) /\ ~ made_elsewhere o 0 /\ rank a = 0 /\ n_coordinates w1 o 2.
Proof. exact ex_show_lagrangian. Qed.
Example C152_time_case : exists t w0 a w1 o oc, calc_geodesic_time 1 None ex_time_w = (Ok t, w0) /\
  obtained w0 t (Some 0) None 0 2 a w1 o /\ obj_of w1 0 = Some oc /\ hd_error (o_syms oc) = Some "x"%string /\ clear_names "x" (o_syms oc) /\
  curve_argument "x" (o_syms oc) (Some ex_timed) /\ ~ made_elsewhere o 0 /\ rank a = 1 /\ n_coordinates w1 o 2.
Proof. exact ex_show_time. Qed.

Section Modes.
Context {A : AlgOps} {P : Printers A}.

(** C153 *)
Theorem C153_mode f r s word t coords idx w : In word ["sympy"; "mathematica"; "latex"]%string -> spelled s word ->
  get_components_mode f r (VStr s) t coords idx w =
  match get_components_all f r t coords idx w with
  | (Ok a, w') => (Ok (if String.eqb word "sympy" then OArray a else OText (
      if String.eqb word "latex" then p_latex (inl a)
      else p_mathematica (match shape a with [] => inr (aget a []) | _ => inl a end))), w')
  | (Err e, w') => (Err e, w')
  end.
Proof. exact (mode_ok f r s word t coords idx w). Qed.
Theorem C153_other_modes f r m t coords idx w :
  (forall s word, m = VStr s -> In word ["sympy"; "mathematica"; "latex"]%string -> ~ spelled s word) ->
  get_components_mode f r m t coords idx w = (Err (match m with VStr _ => EValueError | _ => ETypeError end), w).
Proof. exact (mode_bad f r m t coords idx w). Qed.
Theorem C153_coordinates s word t o w : In word ["sympy"; "mathematica"; "latex"]%string -> spelled s word -> obj_of w t = Some o ->
  exists a, awf a /\ shape a = [length (o_syms o)] /\ (forall i, i < length (o_syms o) -> aget a [i] = ksym (nth i (o_syms o) ""%string)) /\
  exists b, shown_as a b /\
  coordinates_mode (VStr s) t w = (Ok (if String.eqb word "sympy" then OArray a else OText (
      if String.eqb word "latex" then p_latex (inl b) else p_mathematica (inl a))), w).
Proof. exact (coordinates_mode_ok s word t o w). Qed.
End Modes.
Print Assumptions C153_mode.
Print Assumptions C153_other_modes.
Print Assumptions C153_coordinates.
Example C153_case : spelled "LaTeX" "latex" /\
  (forall word, In word ["sympy"; "mathematica"; "latex"]%string -> ~ spelled "tex" word) /\ exists o, obj_of ex_w 0 = Some o.
Proof. exact ex_mode_case. Qed.
