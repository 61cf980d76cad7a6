(** Properties of the components with replacements. *)
From Coq Require Import QArith String.
From Verif Require Import Alg Arr Spec TensorM WorldM SpecWorld GeodM SpecGeod CurveM SpecCurve Inst Ex ExWorld InstCurve Curve4_P Witness_Curve_P.
Import List.
Local Open Scope nat_scope.

(** C134.  [r] is the dictionary given to replace. *)
Theorem C134_replace_is_simultaneous : forall {A : AlgOps} {L : AlgLaws A} {D : DiffLaws A} {S : SubsLaws A} {Y : SymLaws A}
  w t coords idx a w1 r, get_components t coords idx w = (Ok a, w1) -> awf a -> plain_replacement r ->
  exists b, get_components_replaced r t coords idx w = (Ok b, w1) /\ pointwise (subs_seq r) a b /\
    forall fresh, (forall i, inb (shape a) i = true -> fresh_for r fresh (aget a i)) -> pointwise (subs_sim r fresh) a b.
Proof. exact (fun A L D S Y => replaced_components). Qed.
Print Assumptions C134_replace_is_simultaneous.
Example C134_example : exists a w1, get_components 3 None None ex_w = (Ok a, w1) /\ awf a /\ shape a = [2] /\ plain_replacement ex_plain /\
  forall i, inb (shape a) i = true -> fresh_for ex_plain ["p"; "q"]%string (aget a i).
Proof. exact ex_plain_hyps. Qed.

(** C135.  False: the symbols are replaced one after the other. *)
Theorem C135_exchange_refuted : exists (w : @world PolyOps) t a w1 b w2 r fresh, reachable w /\ cls_of w t = Some CTensor /\
  get_components t None None w = (Ok a, w1) /\ awf a /\ shape a = [2] /\
  NoDup (map fst r) /\ fresh_for r fresh (aget a [0]) /\
  get_components_replaced r t None None w1 = (Ok b, w2) /\ ~ keq (aget b [0]) (subs_sim r fresh (aget a [0])).
Proof. exact swap_witness. Qed.
Print Assumptions C135_exchange_refuted.

Section Curves.
Context {A : AlgOps} {L : AlgLaws A} {D : DiffLaws A} {S : SubsLaws A} {Y : SymLaws A} {V : SelfLaws A} {N : NumSubs A} {NL : NumSubsLaws A N}.

(** C136.  [time] tells geodesic equations with the first coordinate as parameter from
    Lagrangians and other geodesic equations, which have [param]. *)
Theorem C136_components_as_functions : forall w t o coords c idx a w1 oc (time : bool) param p,
  obj_of w t = Some o -> asked_coords o coords c -> get_components t coords idx w = (Ok a, w1) -> obj_of w1 c = Some oc -> awf a ->
  (if time then hd_error (o_syms oc) = Some p else param = p) -> clear_names p (o_syms oc) ->
  exists b, get_curve_components time param None t coords idx w = (Ok b, w1) /\ pointwise (as_functions p (o_syms oc)) a b.
Proof. exact curve_functions. Qed.
Theorem C136_functions_can_be_turned_back : forall p xs e, clear_names p xs -> no_functions p xs e ->
  keq (from_functions p xs (as_functions p xs e)) e.
Proof. exact functions_inverse. Qed.

(** C137 *)
Theorem C137_replacement_follows_the_curve : forall w t o coords c idx a w1 oc param r,
  obj_of w t = Some o -> asked_coords o coords c -> get_components t coords idx w = (Ok a, w1) -> obj_of w1 c = Some oc -> awf a ->
  clear_names param (o_syms oc) -> good_replacement param (o_syms oc) r ->
  exists b, get_curve_components false param (Some r) t coords idx w = (Ok b, w1) /\
    pointwise (fun e => as_functions param (o_syms oc) (replaced param (o_syms oc) r e)) a b.
Proof. exact curve_replaced. Qed.
Theorem C137_with_time_parameter : forall w t o coords c idx a w1 oc p param r,
  obj_of w t = Some o -> asked_coords o coords c -> get_components t coords idx w = (Ok a, w1) -> obj_of w1 c = Some oc -> awf a ->
  hd_error (o_syms oc) = Some p -> clear_names p (o_syms oc) -> good_replacement p (o_syms oc) r ->
  exists b, get_curve_components true param (Some r) t coords idx w = (Ok b, w1) /\
    pointwise (fun e => as_functions p (o_syms oc) (at_parameter p (replaced p (o_syms oc) r e))) a b.
Proof. exact time_curve_replaced. Qed.
Theorem C137_lagrangian_on_the_curve : forall p xs r, clear_names p xs -> good_replacement p xs r -> ~ In p xs ->
  forall n g, length xs = n ->
  keq (replaced p xs r (lagrangian_of n g (fun k => velocity (nth k xs ""%string))))
      (lagrangian_of n (fun i j => replaced p xs r (g i j)) (fun k => new_velocity p xs r (nth k xs ""%string))).
Proof. exact replaced_lagrangian. Qed.
Theorem C137_geodesic_on_the_curve : forall p xs r, clear_names p xs -> good_replacement p xs r -> ~ In p xs ->
  forall n G k, length xs = n -> k < n ->
  keq (replaced p xs r (geodesic_of n G (fun k => velocity (nth k xs ""%string)) (fun k => acceleration (nth k xs ""%string)) k))
      (geodesic_of n (fun k i j => replaced p xs r (G k i j)) (fun k => new_velocity p xs r (nth k xs ""%string))
        (fun k => new_acceleration p xs r (nth k xs ""%string)) k).
Proof. exact replaced_geodesic. Qed.

(** C139, extent of the fault: velocities and accelerations are never replaced. *)
Theorem C139_velocities_are_ignored : forall w t o coords c idx a w1 oc param r,
  obj_of w t = Some o -> asked_coords o coords c -> get_components t coords idx w = (Ok a, w1) -> obj_of w1 c = Some oc -> awf a ->
  clear_names param (o_syms oc) ->
  (forall k, In k (map fst r) -> exists x, In x (along_curve param (o_syms oc)) /\ (k = (x ++ "dot")%string \/ k = (x ++ "ddot")%string)) ->
  (forall i, inb (shape a) i = true -> no_functions param (o_syms oc) (aget a i)) ->
  exists b b', get_curve_components false param (Some r) t coords idx w = (Ok b, w1) /\
    get_curve_components false param None t coords idx w = (Ok b', w1) /\ shape b = shape b' /\
    forall i, inb (shape a) i = true -> keq (aget b i) (aget b' i).
Proof. exact velocities_ignored_components. Qed.
End Curves.
Print Assumptions C136_components_as_functions.
Print Assumptions C136_functions_can_be_turned_back.
Print Assumptions C137_replacement_follows_the_curve.
Print Assumptions C137_with_time_parameter.
Print Assumptions C137_lagrangian_on_the_curve.
Print Assumptions C137_geodesic_on_the_curve.
Print Assumptions C139_velocities_are_ignored.
(** The curve x = y^2 in a Lagrangian, and the curve y = x^2 in geodesic equations with parameter x. *)
Example C137_example : exists t w0 o a w1 oc, calc_lagrangian 1 None ex_time_w = (Ok t, w0) /\ obj_of w0 t = Some o /\ asked_coords o (Some 0) 0 /\
  get_components t (Some 0) None w0 = (Ok a, w1) /\ obj_of w1 0 = Some oc /\ awf a /\ clear_names "lambda" (o_syms oc) /\
  good_replacement "lambda" (o_syms oc) ex_parabola /\ ~ In "lambda"%string (o_syms oc).
Proof. exact ex_curve_hyps. Qed.
Example C137_time_example : exists t w0 o a w1 oc, calc_geodesic_time 1 None ex_time_w = (Ok t, w0) /\ obj_of w0 t = Some o /\ asked_coords o (Some 0) 0 /\
  get_components t (Some 0) None w0 = (Ok a, w1) /\ obj_of w1 0 = Some oc /\ awf a /\ hd_error (o_syms oc) = Some "x"%string /\ clear_names "x" (o_syms oc) /\
  good_replacement "x" (o_syms oc) ex_timed.
Proof. exact ex_timed_hyps. Qed.
Example C139_example : exists t w0 o a w1 oc, calc_lagrangian 1 None ex_time_w = (Ok t, w0) /\ obj_of w0 t = Some o /\ asked_coords o (Some 0) 0 /\
  get_components t (Some 0) None w0 = (Ok a, w1) /\ obj_of w1 0 = Some oc /\ awf a /\ clear_names "lambda" (o_syms oc) /\
  (forall k, In k (map fst [("ydot"%string, pz 3)]) -> exists x, In x (along_curve "lambda" (o_syms oc)) /\ (k = (x ++ "dot")%string \/ k = (x ++ "ddot")%string)) /\
  forall i, inb (shape a) i = true -> no_functions "lambda" (o_syms oc) (aget a i).
Proof. exact ex_ignored_hyps. Qed.

(** C138.  False: the acceleration is replaced before the velocity. *)
Theorem C138_coordinate_in_its_own_value_refuted : exists (w : @world PolyOps) m t w0 c oc a w1 b w2 p r fresh,
  reachable w /\ calc_geodesic_time m None w = (Ok t, w0) /\ get_components t (Some c) None w0 = (Ok a, w1) /\ awf a /\ shape a = [2] /\
  obj_of w1 c = Some oc /\ hd_error (o_syms oc) = Some p /\ clear_names p (o_syms oc) /\
  (exists x e, r = [(x, e)] /\ In x (o_syms oc) /\ x <> p /\ static p (o_syms oc) e) /\
  fresh_for (curve_rules p (o_syms oc) r) fresh (aget a [1]) /\
  get_curve_components true "lambda" (Some r) t (Some c) None w1 = (Ok b, w2) /\
  ~ keq (aget b [1]) (as_functions p (o_syms oc) (at_parameter p (subs_sim (curve_rules p (o_syms oc) r) fresh (aget a [1])))).
Proof. exact self_witness. Qed.
Print Assumptions C138_coordinate_in_its_own_value_refuted.

(** C139.  False. *)
Theorem C139_velocity_replaced_refuted : exists (w : @world PolyOps) m t w0 c oc a w1 b w2 p x q,
  reachable w /\ calc_lagrangian m None w = (Ok t, w0) /\ get_components t (Some c) None w0 = (Ok a, w1) /\ awf a /\ shape a = [] /\
  obj_of w1 c = Some oc /\ clear_names p (o_syms oc) /\ In x (o_syms oc) /\ x <> p /\
  (forall s, free_of s q) /\
  get_curve_components false p (Some [((x ++ "dot")%string, q)]) t (Some c) None w1 = (Ok b, w2) /\
  ~ keq (aget b []) (as_functions p (o_syms oc) (ksub1 (x ++ "dot")%string q (aget a []))).
Proof. exact velocity_witness. Qed.
Print Assumptions C139_velocity_replaced_refuted.

(** C140.  False: the number 0 is replaced by the second derivative of the value. *)
Theorem C140_zero_stays_zero_refuted : exists (w : @world PolyOps) m t w0 c oc a w1 b w2 p s q,
  reachable w /\ calc_geodesic_time m None w = (Ok t, w0) /\ get_components t (Some c) None w0 = (Ok a, w1) /\ awf a /\ shape a = [2] /\
  obj_of w1 c = Some oc /\ hd_error (o_syms oc) = Some p /\ clear_names p (o_syms oc) /\
  ~ In s (p :: curve_symbols p (o_syms oc) ++ function_names p (o_syms oc)) /\ static p (o_syms oc) q /\
  keq (aget a [0]) k0 /\
  get_curve_components true "lambda" (Some [(s, q)]) t (Some c) None w1 = (Ok b, w2) /\ ~ keq (aget b [0]) k0.
Proof. exact zero_witness. Qed.
Print Assumptions C140_zero_stays_zero_refuted.

(** C141.  False: the number 1 is replaced by the derivative of the value. *)
Theorem C141_parameter_that_does_not_occur_refuted : exists (w : @world PolyOps) m t w0 c oc a w1 b w2 b' w3 p q,
  reachable w /\ calc_geodesic_time m None w = (Ok t, w0) /\ get_components t (Some c) None w0 = (Ok a, w1) /\ awf a /\ shape a = [2] /\
  obj_of w1 c = Some oc /\ hd_error (o_syms oc) = Some p /\ clear_names p (o_syms oc) /\
  (forall s, free_of s q) /\ free_of p (aget a [1]) /\
  get_curve_components true "lambda" (Some [(p, q)]) t (Some c) None w1 = (Ok b, w2) /\
  get_curve_components true "lambda" None t (Some c) None w2 = (Ok b', w3) /\ ~ keq (aget b [1]) (aget b' [1]).
Proof. exact parameter_witness. Qed.
Print Assumptions C141_parameter_that_does_not_occur_refuted.
