(** Importing Defaults.py in a concrete session. *)
From Coq Require Import QArith Qcanon.
From Verif Require Import Alg Alg_P Arr Arr_P Spec TensorM Inst InstSph WorldM SpecWorld World_P Registry_P CalcM SpecCalc CurvM SpecCurv SpecDefault SpecStart DefaultsM Start_P ExWorld Witness_World_P Witness_History_P Witness_Volume_P Witness_Default_P.
Local Open Scope nat_scope.

Definition pick (l : list (pexp * pexp)) (other e : pexp) : pexp :=
  match find (fun p => sisz (PSub e (fst p))) l with Some p => snd p | None => other end.
Definition sph_functions : @functions SphOps := @mkFunctions SphOps
  (pick [(PV "theta", v_s)] (PV "sin(phi)")) (pick [(PV "theta", v_c)] (PV "cos(phi)"))
  (fun _ => PV "sqrt(x^2+y^2+z^2)") (fun _ => PV "acos") (fun _ => PV "atan")
  (pick [(v_r, v_ri); (v_s, v_si); (v_f, v_fi); (v_w, v_wi); (v_a, v_ai)] (PV "1/x")) v_a.

Lemma def_order : @in_order SphOps def_w.
Proof. exact (proj1 (session_chart _ _ _ _ _ _ _ _ sch_session)). Qed.
Lemma def_chart : @chart SphOps def_w 4 0 sph_xs.
Proof. exact (proj2 (session_chart _ _ _ _ _ _ _ _ sch_session)). Qed.
Lemma def_arrays a : In a [@minkowski_matrix SphOps; schwarzschild_array sph_functions; flrw_array sph_functions] ->
  @mdet0 SphOps 4 (data a) = false /\ forall e, In e (data a) -> @kisz SphOps (simp (ksub e e)) = true.
Proof.
  intros H. assert (E : negb (@mdet0 SphOps 4 (data a)) && forallb (fun e => @kisz SphOps (simp (ksub e e))) (data a) = true).
  { destruct H as [<-|[<-|[<-|[]]]]; vmtrue. }
  apply andb_prop in E as [E1 E2]. split; [destruct (mdet0 4 (data a)); [discriminate E1|reflexivity]|]. rewrite forallb_forall in E2. exact E2.
Qed.
Lemma def_module : let F := sph_functions in
  @spherical_functions SphOps sph_xs (ksym "r") (f_inv F (ksym "r")) (f_sin F (ksym "theta")) (f_inv F (f_sin F (ksym "theta"))) (f_cos F (ksym "theta")).
Proof. exact def_functions. Qed.
Lemma def_module_inverses : let F := sph_functions in
  @keq SphOps (kmul (horizon_function (ksym "M") (f_inv F (ksym "r"))) (f_inv F (horizon_function (ksym "M") (f_inv F (ksym "r"))))) k1 /\
  @keq SphOps (kmul (curvature_function (ksym "k") (ksym "r")) (f_inv F (curvature_function (ksym "k") (ksym "r")))) k1 /\
  @keq SphOps (kmul (f_a F) (f_inv F (f_a F))) k1.
Proof. split; [|split]; apply a_same_spec; vmtrue. Qed.
Lemma def_unnamed name : In name ["4D Minkowski"; "Schwarzschild"; "FLRW"]%string -> @unnamed SphOps def_w (result_names name).
Proof.
  intros Hn s j Hs. assert (F : a_free def_w (flat_map result_names ["4D Minkowski"; "Schwarzschild"; "FLRW"]%string) = true) by vmtrue.
  apply (a_free_spec _ _ F). apply in_flat_map. exists name. split; assumption.
Qed.
