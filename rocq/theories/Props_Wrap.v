(** Constructors and the methods that make objects: C186 - C188. *)
From Coq Require Import QArith.
From Verif Require Import Alg Arr Spec TensorM WorldM SpecWorld InterpM ExportM SpecExport WrapM Wrap_P Wrap2_P Inst Ex ExWorld ExExport Witness_Wrap_P.
Local Open Scope nat_scope.

(** C186.  Coordinates and metrics: the arguments that are accepted, exactly. *)
Theorem C186_coordinates_validated :
  forall (A : AlgOps) (w : world) (name comps indices symbol : pyval) tr,
  (exists i w', new_coordinates name comps indices symbol tr w = (Ok i, w')) <->
  exists a, (comps = VArr a \/ exists sh l, comps = VSyms sh l /\ a = mkArr sh (map ksym l)) /\ rank a = 1 /\
    (exists s, name = VStr s) /\ (exists s, symbol = VStr s \/ symbol = VSymbol s) /\
    (indices = VNone \/ indices = VTuple [1]%Z /\ forall c r, In (c, r) tr -> ~ In RBad r).
Proof. exact (@new_coordinates_valid). Qed.
Print Assumptions C186_coordinates_validated.

Theorem C186_metric_validated :
  forall (A : AlgOps) (DL : DetLaws A) (w : world) (name comps coords indices symbol : pyval),
  (forall a, array_like comps a -> awf a) ->
  (exists i w', new_metric name comps coords indices symbol w = (Ok i, w')) <->
  exists c n a, coords = VObj c /\ coordinate_system w c n /\
    (exists s, name = VStr s) /\ (exists s, symbol = VStr s \/ symbol = VSymbol s) /\
    array_like comps a /\ shape a = [n; n] /\ (indices = VTuple [-1; -1]%Z \/ indices = VTuple [1; 1]%Z) /\
    mdet0 n (data a) = false /\ (forall i j, i < n -> j < n -> kisz (simp (ksub (aget a [i; j]) (aget a [j; i]))) = true).
Proof. exact (@new_metric_valid). Qed.
Print Assumptions C186_metric_validated.

(** What is made of them. *)
Theorem C186_new_coordinates_attributes :
  forall (A : AlgOps) (w : world) (name comps indices symbol : pyval) tr i w',
  new_coordinates name comps indices symbol tr w = (Ok i, w') ->
  exists o a, as_array comps = Some a /\ obj_of w' i = Some o /\ cls_of w' i = Some CCoordinates /\ obj_of w i = None /\ insts w' = insts w ++ [i] /\
    (forall j, j <> i -> obj_of w' j = obj_of w j /\ cls_of w' j = cls_of w j) /\
    VStr (o_name o) = name /\ (VStr (o_symbol o) = symbol \/ VSymbol (o_symbol o) = symbol) /\ o_rank o = 1 /\
    o_comps o = [(i, [([1]%Z, a)])] /\ o_trans o = map (fun cr => (fst cr, stored_rules (snd cr))) tr /\ o_jacs o = [] /\
    o_indices o = match indices with VTuple l => l | _ => [-1]%Z end /\ (forall sh l, comps = VSyms sh l -> o_syms o = l).
Proof. exact (@new_coordinates_object). Qed.
Print Assumptions C186_new_coordinates_attributes.

Theorem C186_new_metric_attributes :
  forall (A : AlgOps) (w : world) (name comps coords indices symbol : pyval) t w',
  new_metric name comps coords indices symbol w = (Ok t, w') ->
  exists c o n a gi l, coords = VObj c /\ indices = VTuple l /\ array_like comps a /\ shape a = [n; n] /\ ainv a = Ok gi /\
    obj_of w' t = Some o /\ cls_of w' t = Some CMetric /\ obj_of w t = None /\ insts w' = insts w ++ [t] /\
    (forall j, j <> t -> obj_of w' j = obj_of w j /\ cls_of w' j = cls_of w j) /\
    VStr (o_name o) = name /\ (VStr (o_symbol o) = symbol \/ VSymbol (o_symbol o) = symbol) /\ o_rank o = 2 /\
    o_indices o = l /\ o_coords o = Some c /\ o_metric o = Some t /\
    o_comps o = [(c, [(l, a); ([1; -1]%Z, eye n); ([-1; 1]%Z, eye n); (map Z.opp l, gi)])].
Proof. exact (@new_metric_object). Qed.
Print Assumptions C186_new_metric_attributes.

(** C187.  The methods and their default arguments. *)
Theorem C187_metric_new_tensor :
  forall (A : AlgOps) (w : world) (m : oid) (o : obj) (c : oid) n (name comps : pyval),
  cls_of w m = Some CMetric -> obj_of w m = Some o -> o_coords o = Some c -> coordinate_system w c n ->
  ((exists i w', metric_new_tensor m name comps None None None w = (Ok i, w')) <->
   (exists s, name = VStr s) /\ exists a, array_like comps a /\ Forall (fun d => d = n) (shape a)) /\
  forall i w', metric_new_tensor m name comps None None None w = (Ok i, w') ->
  exists a t, array_like comps a /\
    obj_of w' i = Some t /\ cls_of w' i = Some CTensor /\ obj_of w i = None /\ insts w' = insts w ++ [i] /\
    (forall j, j <> i -> obj_of w' j = obj_of w j /\ cls_of w' j = cls_of w j) /\
    VStr (o_name t) = name /\ o_symbol t = "T"%string /\ o_rank t = rank a /\
    o_indices t = repeat (-1)%Z (rank a) /\ o_coords t = Some c /\ o_metric t = Some m /\ o_comps t = [(c, [(o_indices t, a)])].
Proof. exact (@metric_new_tensor_ok). Qed.
Print Assumptions C187_metric_new_tensor.

(** The methods are the functions new_metric and new_tensor with the object as argument. *)
Theorem C187_method_new_metric :
  forall (A : AlgOps) (c : oid) (name comps : pyval) (indices symbol : option pyval),
  coords_new_metric c name comps indices symbol = py_new_metric name comps (VObj c) indices symbol.
Proof. exact (@coords_new_metric_same). Qed.
Print Assumptions C187_method_new_metric.

Theorem C187_method_new_tensor :
  forall (A : AlgOps) (m : oid) (name comps coords : pyval) (indices symbol : option pyval), coords <> VNone ->
  metric_new_tensor m name comps (Some coords) indices symbol = py_new_tensor name comps (VObj m) coords indices symbol.
Proof. exact (@metric_new_tensor_given). Qed.
Print Assumptions C187_method_new_tensor.

Theorem C187_new_tensor_follows_the_metric :
  forall (A : AlgOps) (w : world) (m c : oid) w1 (name comps : pyval) i w',
  change_default_coords m c w = (Ok tt, w1) -> metric_new_tensor m name comps None None None w1 = (Ok i, w') ->
  exists t, obj_of w' i = Some t /\ o_coords t = Some c /\ o_metric t = Some m.
Proof. exact (@new_tensor_follows). Qed.
Print Assumptions C187_new_tensor_follows_the_metric.

Theorem C187_coordinates_new_metric :
  forall (A : AlgOps) (DL : DetLaws A) (w : world) (c : oid) n (name comps : pyval),
  coordinate_system w c n -> (forall a, array_like comps a -> awf a) ->
  ((exists i w', coords_new_metric c name comps None None w = (Ok i, w')) <->
   (exists s, name = VStr s) /\ exists a, array_like comps a /\ shape a = [n; n] /\ mdet0 n (data a) = false /\
     (forall i j, i < n -> j < n -> kisz (simp (ksub (aget a [i; j]) (aget a [j; i]))) = true)) /\
  forall i w', coords_new_metric c name comps None None w = (Ok i, w') ->
  exists t, obj_of w' i = Some t /\ cls_of w' i = Some CMetric /\ insts w' = insts w ++ [i] /\
    VStr (o_name t) = name /\ o_symbol t = "g"%string /\ o_indices t = [-1; -1]%Z /\ o_coords t = Some c /\ o_metric t = Some i.
Proof. exact (@coords_new_metric_ok). Qed.
Print Assumptions C187_coordinates_new_metric.

Theorem C187_new_coordinates_defaults :
  forall (A : AlgOps) (w : world) (name comps : pyval),
  ((exists i w', py_new_coordinates name comps None None None w = (Ok i, w')) <->
   (exists s, name = VStr s) /\ exists a, (comps = VArr a \/ exists sh l, comps = VSyms sh l /\ a = mkArr sh (map ksym l)) /\ rank a = 1) /\
  forall i w', py_new_coordinates name comps None None None w = (Ok i, w') ->
  exists t a, as_array comps = Some a /\ obj_of w' i = Some t /\ cls_of w' i = Some CCoordinates /\ insts w' = insts w ++ [i] /\
    VStr (o_name t) = name /\ o_symbol t = "x"%string /\ o_indices t = [1]%Z /\ o_trans t = [] /\ o_comps t = [(i, [([1]%Z, a)])].
Proof. exact (@py_new_coordinates_ok). Qed.
Print Assumptions C187_new_coordinates_defaults.

Example C187_hypotheses_met :
  cls_of ex_w 2 = Some CMetric /\ (exists o, obj_of ex_w 2 = Some o /\ o_coords o = Some 0) /\ coordinate_system ex_w 0 2 /\
  (forall a, array_like (VMat ex_mat) a -> awf a) /\
  (exists w1, change_default_coords 2 1 ex_w = (Ok tt, w1) /\
     exists i w', metric_new_tensor 2 (ex_str "T") (VMat ex_mat) None None None w1 = (Ok i, w')) /\
  (exists i w', coords_new_metric 0 (ex_str "h") (VArr ex_g) None None ex_w = (Ok i, w')) /\
  ~ (exists i w', coords_new_metric 0 (ex_str "h") (VArr (mkArr [2; 2] [k1; k1; k0; k1])) None None ex_w = (Ok i, w')).
Proof. exact ex_wrap_hypotheses. Qed.

(** C188.  False: coordinates that were accepted are not read back. *)
Theorem C188_unstated_indices_refuted :
  exists (w : @world PolyOps) i o s, reachable w /\ coordinate_system w i 2 /\ obj_of w i = Some o /\ o_indices o = [-1]%Z /\
    export_to_string i w = (Ok s, w) /\ ends (fun f => import_from_string f s) w (Err EException, w).
Proof. exact none_witness. Qed.
Print Assumptions C188_unstated_indices_refuted.

(** Equal symbols, no symbols, and a rule that is not an equation are accepted. *)
Theorem C188_distinct_symbols_refuted :
  (exists i w', py_new_coordinates (ex_str "C") (@VSyms PolyOps [2] ["x"; "x"]%string) None None None ex_w = (Ok i, w')) /\
  (exists a i w', py_new_coordinates (ex_str "C") (VArr a) None None None ex_w = (Ok i, w') /\
     forall k s, k < length (data a) -> nth k (data a) k0 <> @ksym PolyOps s) /\
  (exists i w', py_new_coordinates (ex_str "C") (VSyms [2] ex_xs) (Some VNone) None (Some [(1, [RBad])]) ex_w = (Ok i, w')).
Proof. exact accepted_witness. Qed.
Print Assumptions C188_distinct_symbols_refuted.
