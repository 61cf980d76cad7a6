(** Properties of Lagrangians and geodesic equations: C63, C71 - C76. *)
From Verif Require Import Alg Arr Spec TensorM WorldM SpecWorld CalcM SpecCalc CurvM SpecCurv GeodM SpecGeod Geod2_P Geod4_P Geod5_P Inst Ex ExWorld Witness_Curv_P Witness_Geod_P.
From Coq Require Import Permutation.
Local Open Scope nat_scope.

(** C63.  The property is false.  First in general: whatever the coordinate change, the
    "transformed" equations are the old ones, in the old coordinates. *)
Theorem C63_geodesics_not_transformed : forall {A : AlgOps} {L : AlgLaws A} {C : CleanLaws A} p ys n J Ji rules i a b,
  awf a -> shape a = [n] -> square n J -> square n Ji -> i = 1%Z \/ i = (-1)%Z ->
  geodesic_transform p ys J Ji rules 1 [i] a = Ok b ->
  shape b = [n] /\ forall k, k < n -> unit_multiple (aget b [k]) (aget a [k]).
Proof. exact (fun A L C => @geodesic_not_transformed A L C). Qed.
Print Assumptions C63_geodesics_not_transformed.
(** A session in which the components in other coordinates are not the geodesic equations of
    the metric in those coordinates. *)
Theorem C63_geodesics_in_other_coordinates_refuted :
  exists (w : @world PolyOps) m t w0 c oc g w1 gi w2 r w3 k,
  reachable w /\ calc_geodesic_christoffel m None w = (Ok t, w0) /\ obj_of w0 c = Some oc /\
  get_components m (Some c) (Some [-1; -1]%Z) w0 = (Ok g, w1) /\ get_components m (Some c) (Some [1; 1]%Z) w1 = (Ok gi, w2) /\
  get_components t (Some c) None w2 = (Ok r, w3) /\
  k < 2 /\ ~ unit_multiple (aget r [k]) (Geo 2 (o_syms oc) (mat2 g) (mat2 gi) k).
Proof. exact geodesic_transform_witness. Qed.
Print Assumptions C63_geodesics_in_other_coordinates_refuted.

(** C71.  xs are the old coordinates, ys the new ones, p is the curve parameter. *)
Theorem C71_lagrangian_covariant : forall {A : AlgOps} {L : AlgLaws A} {D : DiffLaws A} {S : SubsLaws A} {Y : SymLaws A} {I : InvLaws A}
  n p xs ys rules g l J Ji C g',
  let vel x := (x ++ "dot")%string in
  1 <= n -> length xs = n -> length ys = n ->
  NoDup (map fst rules) -> Permutation (map fst rules) xs ->
  (forall x x', In x xs -> In x' xs -> x <> vel x') ->
  (forall x, In x xs -> ~ In x ys /\ ~ In x (map vel ys) /\ ~ In (vel x) ys /\ ~ In (vel x) (map vel ys)) ->
  (forall x, In x xs -> x <> p /\ vel x <> p) ->
  (forall r x, In r rules -> In x xs -> free_of x (snd r) /\ free_of (vel x) (snd r)) ->
  In p ys \/ (forall r, In r rules -> keq (kdiff p (snd r)) k0) ->
  square n g -> (forall i j x, i < n -> j < n -> In x xs -> free_of (vel x) (aget g [i; j])) ->
  awf l -> shape l = [] -> keq (aget l []) (lagrangian_of n (mfun g) (fun k => velocity (nth k xs ""%string))) ->
  calculate_jacobian xs ys rules = Ok (J, Ji, C) ->
  transform J Ji rules 2 [-1; -1]%Z g = Ok g' ->
  exists l', lagrangian_transform p ys J Ji rules 0 [] l = Ok l' /\ awf l' /\ shape l' = [] /\
    keq (aget l' []) (lagrangian_of n (mfun g') (fun k => velocity (nth k ys ""%string))).
Proof. exact (fun A L D S Y I => @lagrangian_transform_spec A L D S Y I). Qed.
Print Assumptions C71_lagrangian_covariant.
Example C71_hypotheses_met :
  let rules := ex_rules in
  NoDup (map fst rules) /\ Permutation (map fst rules) ex_xs /\
  (forall x x', In x ex_xs -> In x' ex_xs -> x <> (x' ++ "dot")%string) /\
  (forall x, In x ex_xs -> ~ In x ex_ys /\ ~ In x (map (fun y => y ++ "dot") ex_ys)%string /\ ~ In (x ++ "dot")%string ex_ys /\ ~ In (x ++ "dot")%string (map (fun y => y ++ "dot") ex_ys)%string) /\
  (forall x, In x ex_xs -> x <> "lambda"%string /\ (x ++ "dot")%string <> "lambda"%string) /\
  (forall r x, In r rules -> In x ex_xs -> free_of x (snd r) /\ free_of (x ++ "dot")%string (snd r)) /\
  (forall r, In r rules -> keq (kdiff "lambda" (snd r)) k0) /\
  square 2 ex_g /\ (forall i j x, i < 2 -> j < 2 -> In x ex_xs -> free_of (x ++ "dot")%string (aget ex_g [i; j])) /\
  exists J Ji C g', calculate_jacobian ex_xs ex_ys rules = Ok (J, Ji, C) /\ transform J Ji rules 2 [-1; -1]%Z ex_g = Ok g'.
Proof. exact ex_lagrangian_hyps. Qed.

Section Values.
Context {A : AlgOps} {L : AlgLaws A} {D : DiffLaws A} {C : CleanLaws A}.
Variables (n : nat) (m c : oid) (name : string) (xs : list string) (g gi : nat -> nat -> K).
Notation session w := (metric_session w n m c name xs g gi).
Notation known w := (known_results n xs g gi w m c name).
Notation curves w := (known_curves n xs g gi w m c name).

(** C72.  [gives_curve] includes that the session stays one to which these theorems apply. *)
Theorem C72_lagrangian_value w coords : session w -> known w -> curves w -> coords = None \/ coords = Some c ->
  gives_curve n xs g gi (calc_lagrangian m coords) m c name [(name ++ " Lagrangian")%string] CLagrangian []
    (fun h => keq (h []) (lagrangian_of n g (fun k => velocity (nth k xs ""%string)))) w.
Proof. exact (lagrangian_gives n m c name xs g gi w coords). Qed.
Theorem C72_geodesic_christoffel_value w coords : session w -> known w -> curves w -> coords = None \/ coords = Some c ->
  gives_curve n xs g gi (calc_geodesic_christoffel m coords) m c name
    [(name ++ " Christoffel")%string; (name ++ " Geodesic From Christoffel")%string] CGeodesic [1]%Z
    (is_geodesic n (Geo n xs g gi)) w.
Proof. exact (geodesic_christoffel_gives n m c name xs g gi w coords). Qed.

(** C73 *)
Theorem C73_geodesic_lagrangian_value {Y : SymLaws A} w coords : session w -> known w -> curves w -> static_metric n xs g ->
  coords = None \/ coords = Some c ->
  gives_curve n xs g gi (calc_geodesic_lagrangian m coords) m c name
    [(name ++ " Lagrangian")%string; (name ++ " Geodesic From Lagrangian")%string] CGeodesic [1]%Z
    (is_geodesic n (Geo_lowered n xs g gi)) w.
Proof. exact (geodesic_lagrangian_gives n m c name xs g gi w coords). Qed.
Theorem C73_same_solutions : inverse_fun n g gi ->
  ((forall k, k < n -> keq (Geo_lowered n xs g gi k) k0) <-> (forall k, k < n -> keq (Geo n xs g gi k) k0)).
Proof. exact (lowered_zero n xs g gi). Qed.

(** C75 *)
Theorem C75_geodesic_time_value w coords : session w -> known w -> curves w -> coords = None \/ coords = Some c ->
  gives_curve n xs g gi (calc_geodesic_time m coords) m c name
    [(name ++ " Christoffel")%string; (name ++ " Geodesic With Time Parameter")%string] CGeodesic [1]%Z
    (is_geodesic n (Geo_time n xs g gi)) w.
Proof. exact (geodesic_time_gives n m c name xs g gi w coords). Qed.
Theorem C75_time_equation_trivial : keq (Geo_time n xs g gi 0) k0.
Proof. exact (time_first n xs g gi). Qed.
Theorem C75_time_from_geodesic s :
  keq (Geo_time n xs g gi s)
    (ksub (geodesic_of n (Gam n xs g gi) (tvel xs) (tacc xs) s)
          (kmul (tvel xs s) (geodesic_of n (Gam n xs g gi) (tvel xs) (tacc xs) 0))).
Proof. exact (time_from_geodesic n xs g gi s). Qed.
End Values.
Print Assumptions C72_lagrangian_value.
Print Assumptions C72_geodesic_christoffel_value.
Print Assumptions C73_geodesic_lagrangian_value.
Print Assumptions C73_same_solutions.
Print Assumptions C75_geodesic_time_value.
Print Assumptions C75_time_equation_trivial.
Print Assumptions C75_time_from_geodesic.

(** A session with a metric that is not constant meets the hypotheses of C72, C73 and C75. *)
Example curves_hypotheses_met : metric_session ex_w 2 2 0 "g" ex_xs (mat2 ex_g) (mat2 ex_gi) /\
  known_results 2 ex_xs (mat2 ex_g) (mat2 ex_gi) ex_w 2 0 "g" /\ known_curves 2 ex_xs (mat2 ex_g) (mat2 ex_gi) ex_w 2 0 "g" /\
  static_metric 2 ex_xs (mat2 ex_g).
Proof. exact ex_curve_session. Qed.

(** C74.  The property is false: in coordinates other than the default ones of the metric the
    Christoffel symbols in the old coordinates are contracted with the velocities in the new
    ones (compare C41), and the result is transformed as a vector. *)
Theorem C74_geodesic_in_given_coordinates_refuted :
  exists (w : @world PolyOps) m t w0 c oc g w1 gi w2 r w3 k,
  reachable w /\ calc_geodesic_christoffel m (Some c) w = (Ok t, w0) /\ obj_of w0 c = Some oc /\
  get_components m (Some c) (Some [-1; -1]%Z) w0 = (Ok g, w1) /\ get_components m (Some c) (Some [1; 1]%Z) w1 = (Ok gi, w2) /\
  get_components t (Some c) None w2 = (Ok r, w3) /\
  k < 2 /\ ~ unit_multiple (aget r [k]) (Geo 2 (o_syms oc) (mat2 g) (mat2 gi) k).
Proof. exact geodesic_other_witness. Qed.
Print Assumptions C74_geodesic_in_given_coordinates_refuted.

(** C76.  The property is false: the second call changes the object that the first returned. *)
Theorem C76_shared_lagrangian_refuted :
  exists (w : @world PolyOps) m c t w1 o1 w2 o2,
  reachable w /\ calc_lagrangian m None w = (Ok t, w1) /\ obj_of w1 t = Some o1 /\
  calc_lagrangian m (Some c) w1 = (Ok t, w2) /\ obj_of w2 t = Some o2 /\ o_coords o1 <> Some c /\ o_coords o2 = Some c.
Proof. exact shared_lagrangian_witness. Qed.
Print Assumptions C76_shared_lagrangian_refuted.
