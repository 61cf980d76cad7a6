(** C205: metrics that change their default coordinates; C206: transformations that are added and
    removed. *)
From Coq Require Import QArith Qcanon.
From Verif Require Import Alg Arr Spec TensorM WorldM SpecWorld CalcM SpecCalc CurvM SpecCurv SpecDefault SpecStart SpecMove SpecTrans WrapM DefaultsM Move_P MoveDefault_P AddTrans_P Inst InstSph ExWorld Witness_Volume_P Witness_Default_P Witness_Start_P Witness_Move_P.
Local Open Scope nat_scope.

Section Trans.
Context {A : AlgOps}.

(** C206.  Rules replace the transformation to the one coordinate system they are given for; what was
    computed with older rules is kept. *)
Theorem C206_transformation_added w s c so l :
  obj_of w s = Some so -> cls_of w c = Some CCoordinates -> s <> c -> ~ In RBad l ->
  exists w', add_coord_transformation s (VObj c) (Some l) w = (Ok tt, w') /\
    changes_transformations w w' s (fun k old => if k =? c then Some (equations l) else old).
Proof. exact (transformation_added w s c so l). Qed.
Theorem C206_transformation_removed w s c so :
  obj_of w s = Some so -> cls_of w c = Some CCoordinates -> s <> c -> NoDup (map fst (o_trans so)) ->
  (dget Nat.eqb c (o_trans so) <> None ->
   exists w', add_coord_transformation s (VObj c) None w = (Ok tt, w') /\
     changes_transformations w w' s (fun k old => if k =? c then None else old)) /\
  (dget Nat.eqb c (o_trans so) = None -> add_coord_transformation s (VObj c) None w = (Err EKeyError, w)).
Proof. exact (transformation_removed w s c so). Qed.
(** Everything else is refused, and nothing changes. *)
Theorem C206_transformation_refused w s so : obj_of w s = Some so ->
  (forall v rules, (forall c, v = VObj c -> cls_of w c <> Some CCoordinates \/ c = s) ->
     add_coord_transformation s v rules w = (Err ETransformation, w)) /\
  (forall c l, cls_of w c = Some CCoordinates -> s <> c -> In RBad l ->
     add_coord_transformation s (VObj c) (Some l) w = (Err ETypeError, w)).
Proof. exact (transformation_refused w s so). Qed.
End Trans.
Print Assumptions C206_transformation_added.
Print Assumptions C206_transformation_removed.
Print Assumptions C206_transformation_refused.

(** A session with two coordinate systems and a transformation from one to the other only. *)
Example ex_C206_transformations : exists s1 s2,
  @obj_of PolyOps ex_w 0 = Some s1 /\ @obj_of PolyOps ex_w 1 = Some s2 /\ @cls_of PolyOps ex_w 0 = Some CCoordinates /\ @cls_of PolyOps ex_w 1 = Some CCoordinates /\
  map fst (o_trans s1) = [1] /\ NoDup (map fst (o_trans s1)) /\ dget Nat.eqb 1 (o_trans s1) <> None /\ dget Nat.eqb 0 (o_trans s2) = None.
Proof. do 2 eexists. repeat (split; [reflexivity|]). split; [repeat constructor; intros []|]. split; [discriminate|reflexivity]. Qed.

Section Move.
Context {A : AlgOps} {L : AlgLaws A} {D : DiffLaws A} {IL : InvLaws A} {DL : DetLaws A}.

(** C205.  A metric that changes its default coordinates is a metric in the new coordinates with
    which curvature can be computed; its components are those of the old coordinates, transformed. *)
Theorem C205_metric_in_new_coordinates w n m c name xs g gi c' ys R w' :
  metric_session w n m c name xs g gi -> chart w n c' ys -> c <> c' -> only_in w m c -> new_rules w c c' R ->
  NoDup (map fst R) -> (forall s, In s (map fst R) -> substitutable s) ->
  change_default_coords m c' w = (Ok tt, w') ->
  exists gi', metric_session w' n m c' name ys (moved_metric n xs ys R g) gi' /\
    insts w' = insts w /\ (forall s j, named w' s j <-> named w s j).
Proof. exact (metric_moves w n m c name xs g gi c' ys R w'). Qed.

(** Minkowski's metric of the module Defaults becomes diag(-1, 1, r^2, r^2 sin(theta)^2) in the
    spherical coordinates of the module, and stays flat. *)
Theorem C205_minkowski_in_spherical_coordinates F w d w' w2 ri si :
  let xs := ["t"; "r"; "theta"; "phi"]%string in
  let r := ksym "r" in let st := f_sin F (ksym "theta") in
  in_order w ->
  (forall a, In a [minkowski_matrix; schwarzschild_array F; flrw_array F] ->
     mdet0 4 (data a) = false /\ forall e, In e (data a) -> kisz (simp (ksub e e)) = true) ->
  spherical_functions xs r ri st si (f_cos F (ksym "theta")) ->
  azimuth_functions xs (f_sin F (ksym "phi")) (f_cos F (ksym "phi")) ->
  (forall s, In s ["x"; "y"; "z"]%string -> substitutable s /\ free_of s r /\ free_of s st) ->
  unnamed w (result_names "4D Minkowski") ->
  import_defaults F w = (Ok d, w') -> change_default_coords (d_minkowski d) (d_spherical d) w' = (Ok tt, w2) ->
  (exists gi, metric_session w2 4 (d_minkowski d) (d_spherical d) "4D Minkowski" xs (flat_spherical r st) gi) /\
  exists t w3, calc_riemann (d_minkowski d) w2 = (Ok t, w3) /\
    tensor_value w3 4 (d_minkowski d) (d_spherical d) t [1; -1; -1; -1]%Z (fun _ => k0).
Proof. exact (minkowski_moves F w d w' w2 ri si). Qed.
End Move.
Print Assumptions C205_metric_in_new_coordinates.
Print Assumptions C205_minkowski_in_spherical_coordinates.

(** Minkowski's metric after the import, moved by its three rules. *)
Example ex_C205_session : exists w m c name xs g gi c' ys R w',
  @metric_session SphOps w 4 m c name xs g gi /\ @chart SphOps w 4 c' ys /\ c <> c' /\ @only_in SphOps w m c /\ @new_rules SphOps w c c' R /\
  NoDup (map fst R) /\ length R = 3 /\ (forall s, In s (map fst R) -> @substitutable SphOps s) /\ @change_default_coords SphOps m c' w = (Ok tt, w').
Proof. exact move_session. Qed.
Example ex_C205_minkowski : let F := sph_functions in
  @in_order SphOps def_w /\
  (forall a, In a [@minkowski_matrix SphOps; schwarzschild_array F; flrw_array F] ->
     @mdet0 SphOps 4 (data a) = false /\ forall e, In e (data a) -> @kisz SphOps (simp (ksub e e)) = true) /\
  @spherical_functions SphOps sph_xs (ksym "r") (f_inv F (ksym "r")) (f_sin F (ksym "theta")) (f_inv F (f_sin F (ksym "theta"))) (f_cos F (ksym "theta")) /\
  @azimuth_functions SphOps sph_xs (f_sin F (ksym "phi")) (f_cos F (ksym "phi")) /\
  (forall s, In s ["x"; "y"; "z"]%string -> @substitutable SphOps s /\ @free_of SphOps s (ksym "r") /\ @free_of SphOps s (f_sin F (ksym "theta"))) /\
  @unnamed SphOps def_w (result_names "4D Minkowski") /\
  exists d w' w2, @import_defaults SphOps F def_w = (Ok d, w') /\ @change_default_coords SphOps (d_minkowski d) (d_spherical d) w' = (Ok tt, w2).
Proof.
  exact (conj def_order (conj def_arrays (conj def_module (conj sph_azimuth (conj sph_move (conj (def_unnamed _ (or_introl eq_refl)) move_runs)))))).
Qed.
