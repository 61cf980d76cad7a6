(** The start of a session: C197 (new coordinates and metrics) and C198 (import of Defaults.py). *)
From Coq Require Import QArith Qcanon.
From Verif Require Import Alg Arr Spec TensorM WorldM SpecWorld CalcM SpecCalc CurvM SpecCurv SpecDefault SpecStart WrapM DefaultsM Start_P StartDefault_P Inst InstSph ExWorld Witness_Volume_P Witness_Default_P Witness_Start_P.
Local Open Scope nat_scope.

Section Start.
Context {A : AlgOps}.

(** C197.  In every session in order, a vector of symbols makes a chart; the session stays in
    order, and everything that could be used before can be used as before. *)
Theorem C197_new_coordinates_start w name n xs symbol :
  in_order w -> 1 <= n -> length xs = n -> name <> "TEMP"%string ->
  (exists s, symbol = VStr s \/ symbol = VSymbol s) ->
  exists c w', new_coordinates (VStr name) (VSyms [n] xs) (VTuple [1]%Z) symbol [] w = (Ok c, w') /\
    added w w' c /\ named w' name c /\ in_order w' /\ chart w' n c xs /\ still_usable [name] w w'.
Proof. exact (new_coordinates_start w name n xs symbol). Qed.

Context {L : AlgLaws A} {D : DiffLaws A} {IL : InvLaws A} {DL : DetLaws A}.

(** A symmetric matrix that SymPy can invert then makes a metric with which curvature can be
    computed. *)
Theorem C197_new_metric_start w name n c xs comps a symbol :
  in_order w -> chart w n c xs -> name <> "TEMP"%string ->
  (exists s, symbol = VStr s \/ symbol = VSymbol s) ->
  array_like comps a -> awf a -> shape a = [n; n] -> mdet0 n (data a) = false ->
  (forall i j, i < n -> j < n -> kisz (simp (ksub (aget a [i; j]) (aget a [j; i]))) = true) ->
  exists m w' gi, new_metric (VStr name) comps (VObj c) (VTuple [-1; -1]%Z) symbol w = (Ok m, w') /\
    added w w' m /\ metric_session w' n m c name xs (fun i j => aget a [i; j]) gi /\
    (unnamed w (result_names name) -> known_results n xs (fun i j => aget a [i; j]) gi w' m c name) /\
    still_usable [name] w w'.
Proof. exact (new_metric_start w name n c xs comps a symbol). Qed.

(** C198.  Importing Defaults.py into any session in order makes five objects, with the two
    transformations, and the three metrics can be used.  [F] are the functions of SymPy. *)
Theorem C198_import_defaults_run F w :
  in_order w ->
  (forall a, In a [minkowski_matrix; schwarzschild_array F; flrw_array F] ->
     mdet0 4 (data a) = false /\ forall e, In e (data a) -> kisz (simp (ksub e e)) = true) ->
  exists d w' g1 g2 g3, import_defaults F w = (Ok d, w') /\
    insts w' = insts w ++ [d_cartesian d; d_spherical d; d_minkowski d; d_schwarzschild d; d_flrw d] /\
    named w' "4D Cartesian" (d_cartesian d) /\ named w' "4D Spherical" (d_spherical d) /\
    (exists o, obj_of w' (d_cartesian d) = Some o /\ o_trans o = [(d_spherical d, stored_rules (to_spherical F))] /\ o_jacs o = []) /\
    (exists o, obj_of w' (d_spherical d) = Some o /\ o_trans o = [(d_cartesian d, stored_rules (to_cartesian F))] /\ o_jacs o = []) /\
    metric_session w' 4 (d_minkowski d) (d_cartesian d) "4D Minkowski" ["t"; "x"; "y"; "z"]%string minkowski g1 /\
    metric_session w' 4 (d_schwarzschild d) (d_spherical d) "Schwarzschild" ["t"; "r"; "theta"; "phi"]%string
      (schwarzschild (ksym "M") (ksym "r") (f_inv F (ksym "r")) (f_sin F (ksym "theta"))
         (f_inv F (horizon_function (ksym "M") (f_inv F (ksym "r"))))) g2 /\
    metric_session w' 4 (d_flrw d) (d_spherical d) "FLRW" ["t"; "r"; "theta"; "phi"]%string
      (flrw (f_a F) (ksym "r") (f_sin F (ksym "theta")) (f_inv F (curvature_function (ksym "k") (ksym "r")))) g3 /\
    (forall s j, In j (insts w') -> named w' s j ->
       (In j (insts w) /\ named w s j) \/ In s ["4D Cartesian"; "4D Spherical"; "4D Minkowski"; "Schwarzschild"; "FLRW"]%string) /\
    still_usable ["4D Cartesian"; "4D Spherical"; "4D Minkowski"; "Schwarzschild"; "FLRW"]%string w w' /\
    (forall m c, In (m, c) [(d_minkowski d, d_cartesian d); (d_schwarzschild d, d_spherical d); (d_flrw d, d_spherical d)] ->
       exists o, obj_of w' m = Some o /\ map fst (o_comps o) = [c]).
Proof. exact (import_defaults_run F w). Qed.

(** After the import Minkowski's metric is flat, Schwarzschild's has no Ricci tensor but is not
    flat, and the Ricci scalar of the FLRW metric is 6 (a''/a + (a'^2 + k)/a^2). *)
Theorem C198_import_defaults_curvature F w d w' a1 a2 :
  in_order w ->
  (forall a, In a [minkowski_matrix; schwarzschild_array F; flrw_array F] ->
     mdet0 4 (data a) = false /\ forall e, In e (data a) -> kisz (simp (ksub e e)) = true) ->
  let xs := ["t"; "r"; "theta"; "phi"]%string in
  let r := ksym "r" in let ri := f_inv F r in let s := f_sin F (ksym "theta") in
  spherical_functions xs r ri s (f_inv F s) (f_cos F (ksym "theta")) ->
  constant_in xs (ksym "M") -> constant_in xs (ksym "k") ->
  keq (kmul (horizon_function (ksym "M") ri) (f_inv F (horizon_function (ksym "M") ri))) k1 ->
  keq (kmul (curvature_function (ksym "k") r) (f_inv F (curvature_function (ksym "k") r))) k1 ->
  keq (kmul (f_a F) (f_inv F (f_a F))) k1 -> depends_on xs 0 (f_a F) a1 -> depends_on xs 0 a1 a2 ->
  (forall name, In name ["4D Minkowski"; "Schwarzschild"; "FLRW"]%string -> unnamed w (result_names name)) ->
  import_defaults F w = (Ok d, w') ->
  (exists t w2, calc_riemann (d_minkowski d) w' = (Ok t, w2) /\
     tensor_value w2 4 (d_minkowski d) (d_cartesian d) t [1; -1; -1; -1]%Z (fun _ => k0)) /\
  (exists t w2, calc_riemann (d_schwarzschild d) w' = (Ok t, w2) /\
     tensor_value w2 4 (d_schwarzschild d) (d_spherical d) t [1; -1; -1; -1]%Z
       (at4 (planes (schwarzschild (ksym "M") r ri s (f_inv F (horizon_function (ksym "M") ri)))
                    (schwarzschild_planes (kmul (ksym "M") (kmul (kmul ri ri) ri)))))) /\
  (exists t w2, calc_ricci (d_schwarzschild d) w' = (Ok t, w2) /\
     tensor_value w2 4 (d_schwarzschild d) (d_spherical d) t [-1; -1]%Z (fun _ => k0)) /\
  (exists t w2, calc_ricci_scalar (d_flrw d) w' = (Ok t, w2) /\
     tensor_value w2 4 (d_flrw d) (d_spherical d) t []
       (fun _ => kmul (knat 6) (kadd (kmul a2 (f_inv F (f_a F)))
          (kmul (kadd (kmul a1 a1) (ksym "k")) (kmul (f_inv F (f_a F)) (f_inv F (f_a F))))))).
Proof. exact (import_defaults_curvature F w d w' a1 a2). Qed.
End Start.
Print Assumptions C197_new_coordinates_start.
Print Assumptions C197_new_metric_start.
Print Assumptions C198_import_defaults_run.
Print Assumptions C198_import_defaults_curvature.

(** A session with coordinates, two metrics and two tensors, to which Schwarzschild's metric is added. *)
Example ex_C197_start :
  @in_order SphOps def_w /\ @chart SphOps def_w 4 0 sph_xs /\
  @array_like SphOps (VArr (schwarzschild_array sph_functions)) (schwarzschild_array sph_functions) /\
  @awf SphOps (schwarzschild_array sph_functions) /\ shape (schwarzschild_array sph_functions) = [4; 4] /\
  @mdet0 SphOps 4 (data (schwarzschild_array sph_functions)) = false.
Proof.
  exact (conj def_order (conj def_chart (conj (or_introl eq_refl) (conj eq_refl (conj eq_refl
    (proj1 (def_arrays _ (or_intror (or_introl eq_refl))))))))).
Qed.

(** The functions of the module over a concrete algebra, and a session with metrics of the same
    names. *)
Example ex_C198_defaults :
  @in_order SphOps def_w /\
  (forall a, In a [@minkowski_matrix SphOps; schwarzschild_array sph_functions; flrw_array sph_functions] ->
     @mdet0 SphOps 4 (data a) = false /\ forall e, In e (data a) -> @kisz SphOps (simp (ksub e e)) = true) /\
  (let F := sph_functions in
   @spherical_functions SphOps sph_xs (ksym "r") (f_inv F (ksym "r")) (f_sin F (ksym "theta")) (f_inv F (f_sin F (ksym "theta"))) (f_cos F (ksym "theta"))) /\
  @constant_in SphOps sph_xs (ksym "M") /\ @constant_in SphOps sph_xs (ksym "k") /\
  @depends_on SphOps sph_xs 0 (f_a sph_functions) v_a1 /\ @depends_on SphOps sph_xs 0 v_a1 v_a2 /\
  (forall name, In name ["4D Minkowski"; "Schwarzschild"; "FLRW"]%string -> @unnamed SphOps def_w (result_names name)) /\
  ~ @keq SphOps sch_u (@k0 SphOps).
Proof.
  exact (conj def_order (conj def_arrays (conj def_module (conj (def_constant "M" (or_introl eq_refl)) (conj (def_constant "k" (or_intror eq_refl))
    (conj (proj1 def_scale) (conj (proj2 def_scale) (conj def_unnamed sch_u_not_zero)))))))).
Qed.
Example ex_C198_inverses : let F := sph_functions in
  @keq SphOps (kmul (horizon_function (ksym "M") (f_inv F (ksym "r"))) (f_inv F (horizon_function (ksym "M") (f_inv F (ksym "r"))))) k1 /\
  @keq SphOps (kmul (curvature_function (ksym "k") (ksym "r")) (f_inv F (curvature_function (ksym "k") (ksym "r")))) k1 /\
  @keq SphOps (kmul (f_a F) (f_inv F (f_a F))) k1.
Proof. exact def_module_inverses. Qed.
