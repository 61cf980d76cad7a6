(** C17 and C71 for requests in a session. *)
From Verif Require Import Alg Arr Spec TensorM WorldM SpecWorld CalcM SpecCalc CurvM SpecCurv SpecChange GeodM SpecGeod SpecMissing SpecRequest Request_P Inst Ex ExWorld Witness_Request_P.
Local Open Scope nat_scope.

(** C17.  Christoffel symbols that were given in the coordinates [c] and are those of the metric
    there: the components requested in the coordinates [c'] are those of the metric there. *)
Theorem C17_requested_christoffel : forall {A : AlgOps} {L : AlgLaws A} {D : DiffLaws A} {S : SubsLaws A} {I : InvLaws A}
  G m w t c c' R, consistent G -> regular G -> metric_represents G m w ->
  g_sys G c -> dget Nat.eqb c' (g_rules G c) = Some R ->
  forall a0, cls_of w t = Some CChristoffel -> given_in w t c [1; -1; -1]%Z a0 ->
  holds (g_n G) 3 a0 (at3 (Gam (g_n G) (g_syms G c) (g_G G c) (g_Gi G c))) -> ~ stored_in w t c' ->
  exists a w', get_components t (Some c') (Some [1; -1; -1]%Z) w = (Ok a, w') /\
    holds (g_n G) 3 a (at3 (Gam (g_n G) (g_syms G c') (g_G G c') (g_Gi G c'))).
Proof. exact (fun A L D S I => @requested_christoffel A L D S I). Qed.
Print Assumptions C17_requested_christoffel.
Example C17_requested_hypotheses_met : consistent ex_geo3 /\ regular ex_geo3 /\ metric_represents ex_geo3 2 ex_request_w /\ g_sys ex_geo3 0 /\
  dget Nat.eqb 1 (g_rules ex_geo3 0) = Some ex_rules3 /\ cls_of ex_request_w 3 = Some CChristoffel /\
  (exists a0, given_in ex_request_w 3 0 [1; -1; -1]%Z a0 /\ holds 3 3 a0 (at3 (Gam 3 (g_syms ex_geo3 0) (g_G ex_geo3 0) (g_Gi ex_geo3 0)))) /\ ~ stored_in ex_request_w 3 1.
Proof. exact ex_requested_christoffel. Qed.

(** C71.  The same for Lagrangians. *)
Theorem C71_requested_lagrangian : forall {A : AlgOps} {L : AlgLaws A} {D : DiffLaws A} {S : SubsLaws A} {I : InvLaws A} {Y : SymLaws A}
  G m w t c c' R, consistent G -> regular G -> metric_represents G m w ->
  g_sys G c -> dget Nat.eqb c' (g_rules G c) = Some R ->
  forall a0, cls_of w t = Some CLagrangian -> given_in w t c [] a0 ->
  curve_change "lambda" (g_syms G c) (g_syms G c') R ->
  (forall i j x, i < g_n G -> j < g_n G -> In x (g_syms G c) -> free_of (x ++ "dot")%string (g_G G c i j)) ->
  holds (g_n G) 0 a0 (fun _ => metric_lagrangian (g_n G) (g_syms G c) (g_G G c)) -> ~ stored_in w t c' ->
  exists a w', get_components t (Some c') (Some []) w = (Ok a, w') /\
    holds (g_n G) 0 a (fun _ => metric_lagrangian (g_n G) (g_syms G c') (g_G G c')).
Proof. exact (fun A L D S I Y G m w t c c' R HC HR HM Hc Er => @requested_lagrangian A L D S I G m w t c c' R HC HR HM Hc Er Y). Qed.
Print Assumptions C71_requested_lagrangian.
Example C71_requested_hypotheses_met : cls_of ex_request_w 4 = Some CLagrangian /\ curve_change (A := PolyOps) "lambda" ex_xyz ex_uvw ex_rules3 /\
  (forall i j x, i < 3 -> j < 3 -> In x ex_xyz -> free_of (x ++ "dot")%string (mfun ex_g3 i j)) /\
  (exists a0, given_in ex_request_w 4 0 [] a0 /\ holds 3 0 a0 (fun _ => metric_lagrangian 3 ex_xyz (mfun ex_g3))) /\ ~ stored_in ex_request_w 4 1.
Proof. exact ex_requested_lagrangian. Qed.
