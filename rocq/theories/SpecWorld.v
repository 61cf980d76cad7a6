(** Specification vocabulary for sessions.  Definitions only. *)
From Verif Require Export WorldM Spec.

Section SpecWorld.
Context {A : AlgOps}.

(** Object [o] holds a reference to object [j]: as coordinates of stored components, as
    metric, as default coordinates, or as target of a transformation. *)
Definition refers (o : obj) (j : oid) : Prop :=
  In j (map fst (o_comps o)) \/ o_metric o = Some j \/ o_coords o = Some j \/
  In j (map fst (o_trans o)).

(** Every registered object still has its attributes and none is registered twice. *)
Definition registry_ok (w : world) : Prop :=
  NoDup (insts w) /\ forall i, In i (insts w) -> obj_of w i <> None.

(** ... and it refers to registered objects only. *)
Definition integrity (w : world) : Prop :=
  registry_ok w /\
  forall i o j, In i (insts w) -> obj_of w i = Some o -> refers o j -> In j (insts w).

(** [t] is used by another registered object. *)
Definition used (w : world) (t : oid) : Prop :=
  exists i o, In i (insts w) /\ i <> t /\ obj_of w i = Some o /\ refers o t.

(** The public operations of a session. *)
Inductive op :=
| OpCoordinates (name components indices symbol : pyval) (tr : list (oid * list rarg))
| OpMetric (name components coords indices symbol : pyval)
| OpTensor (name components metric coords indices symbol : pyval)
| OpChristoffel (name components metric coords indices symbol : pyval)
| OpLagrangian (name components metric coords indices symbol : pyval)
| OpGeodesic (name components metric coords indices symbol : pyval)
| OpAdd (self : oid) (coords : pyval) (rules : option (list rarg))
| OpGet (t : oid) (coords : option oid) (indices : option (list Z))
| OpIndices (t : oid) (indices : list Z)
| OpCoords (t coords : oid)
| OpName (t : oid) (name : pyval)
| OpSymbol (t : oid) (symbol : pyval)
| OpSimplify (t : oid)
| OpDelete (t : oid) (silent : bool).

Definition run_op (o : op) : M unit :=
  match o with
  | OpCoordinates n c i s tr => new_coordinates n c i s tr ;; mret tt
  | OpMetric n c x i s => new_metric n c x i s ;; mret tt
  | OpTensor n c m x i s => new_tensor n c m x i s ;; mret tt
  | OpChristoffel n c m x i s => new_christoffel n c m x i s ;; mret tt
  | OpLagrangian n c m x i s => new_lagrangian n c m x i s ;; mret tt
  | OpGeodesic n c m x i s => new_geodesic n c m x i s ;; mret tt
  | OpAdd t c r => add_coord_transformation t c r
  | OpGet t c i => get_components t c i ;; mret tt
  | OpIndices t i => change_default_indices t i
  | OpCoords t c => change_default_coords t c
  | OpName t n => change_name t n
  | OpSymbol t s => change_symbol t s
  | OpSimplify t => simplify_tensor t
  | OpDelete t s => delete t s
  end.

(** The objects an operation is given as metric, coordinates or target are registered. *)
Definition live (w : world) (v : pyval) : Prop :=
  match v with VObj i => In i (insts w) | _ => True end.
Definition live_args (w : world) (o : op) : Prop :=
  match o with
  | OpCoordinates _ _ _ _ tr => Forall (fun cr => In (fst cr) (insts w)) tr
  | OpMetric _ _ x _ _ => live w x
  | OpTensor _ _ m x _ _ | OpChristoffel _ _ m x _ _
  | OpLagrangian _ _ m x _ _ | OpGeodesic _ _ m x _ _ => live w m /\ live w x
  | OpAdd _ c _ => live w c
  | _ => True
  end.

Definition empty_world : world := mkW [] [].

(** The states reachable from an empty session; an operation that raises an error also
    takes the session to the state it leaves behind. *)
Inductive reachable : world -> Prop :=
| reach_start : reachable empty_world
| reach_step : forall w o, reachable w -> live_args w o -> reachable (snd (run_op o w)).

(** What is left of a list if, going from left to right, an element that satisfies p is
    removed and its successor is passed over. *)
Fixpoint skip_remove {X} (p : X -> bool) (l : list X) : list X :=
  match l with
  | [] => []
  | x :: l' => if p x then match l' with [] => [] | y :: l'' => y :: skip_remove p l'' end
               else x :: skip_remove p l'
  end.

(** Subsequence. *)
Inductive subseq {X} : list X -> list X -> Prop :=
| subseq_nil : subseq [] []
| subseq_keep : forall x l l', subseq l l' -> subseq (x :: l) (x :: l')
| subseq_drop : forall x l l', subseq l l' -> subseq l (x :: l').

(** Name of an object. *)
Definition named (w : world) (s : string) (i : oid) : Prop :=
  exists o, obj_of w i = Some o /\ o_name o = s.

End SpecWorld.

Section SpecCtor.
Context {A : AlgOps}.

(** The outcome of a constructor call that leaves no trace if it fails and otherwise adds
    exactly one new object at the end of the registry. *)
Definition clean_outcome (w : world) (r : res oid * world) : Prop :=
  match r with
  | (Err _, w') => w' = w
  | (Ok i, w') =>
    ~ In i (insts w) /\ obj_of w i = None /\ insts w' = insts w ++ [i] /\ obj_of w' i <> None /\
    forall j, j <> i -> obj_of w' j = obj_of w j /\ cls_of w' j = cls_of w j
  end.

(** [v] is a tuple of +1 and -1 of length n. *)
Definition index_tuple (n : nat) (v : pyval) : Prop :=
  exists l, v = VTuple l /\ valid_cfg l /\ length l = n.

(** [c] is a coordinate system with n coordinates. *)
Definition coordinate_system (w : world) (c : oid) (n : nat) : Prop :=
  cls_of w c = Some CCoordinates /\
  exists o d x, obj_of w c = Some o /\ dget Nat.eqb c (o_comps o) = Some d /\
    dget cfg_eqb [1]%Z d = Some x /\ length (data x) = n.

(** An Array or a Matrix, with its entries. *)
Definition array_like (v : pyval) (a : arr) : Prop :=
  v = VArr a \/ v = VMat a \/ exists sh l, v = VSyms sh l /\ a = mkArr sh (map ksym l).

End SpecCtor.

Section SpecHistory.
Context {A : AlgOps}.

(** A tensor and a metric on a manifold: [g_sys] are coordinate systems with the symbols
    [g_syms] and the transformation rules [g_rules]; [g_T c] are the components of a tensor of
    rank [g_r] with all indices down, [g_G c] and [g_Gi c] the metric and its inverse, in the
    coordinates c. *)
Record geometry := mkGeo {
  g_n : nat; g_r : nat;
  g_sys : oid -> Prop;
  g_syms : oid -> list string;
  g_rules : oid -> list (oid * list rule);
  g_T : oid -> list nat -> K;
  g_G : oid -> nat -> nat -> K;
  g_Gi : oid -> nat -> nat -> K
}.

(** The derivative of the i-th old coordinate with respect to the j-th new one; a coordinate
    without a rule stays as it is. *)
Definition jacobian_fun (xs ys : list string) (R : list rule) (i j : nat) : K :=
  match dget String.eqb (nth i xs ""%string) R with
  | Some e => kdiff (nth j ys ""%string) e
  | None => kdelta i j
  end.

Definition mat_comps (g : nat -> nat -> K) (idx : list nat) : K :=
  match idx with [i; j] => g i j | _ => k0 end.

(** Covariant components f in the coordinates c become f' in the coordinates c'. *)
Definition covariant_law (g : geometry) (r : nat) (c c' : oid) (R : list rule)
  (f f' : list nat -> K) : Prop :=
  forall idx, in_range (g_n g) r idx ->
    keq (f' idx) (subs_seq R (act (g_n g)
      (repeat (fun i k => jacobian_fun (g_syms g c) (g_syms g c') R k i) r) f idx)).

(** The transformation rules are consistent with one another: there are components of the
    tensor and of the metric in all coordinate systems that every rule connects. *)
Definition consistent (g : geometry) : Prop :=
  1 <= g_n g /\
  (forall c, g_sys g c -> length (g_syms g c) = g_n g /\
     inverse_fun (g_n g) (g_G g c) (g_Gi g c) /\ symmetric_fun (g_n g) (g_G g c)) /\
  (forall c c' R, g_sys g c -> dget Nat.eqb c' (g_rules g c) = Some R ->
     g_sys g c' /\ NoDup (map fst R) /\
     covariant_law g (g_r g) c c' R (g_T g c) (g_T g c') /\
     covariant_law g 2 c c' R (mat_comps (g_G g c)) (mat_comps (g_G g c'))).

(** Components with the configuration i of a tensor with covariant components f. *)
Definition with_indices (g : geometry) (c : oid) (i : list Z) (f : list nat -> K)
  : list nat -> K :=
  act (g_n g) (map (conv (g_G g c) (g_Gi g c) (-1)) i) f.

(** The array a holds the components f. *)
Definition holds (n r : nat) (a : arr) (f : list nat -> K) : Prop :=
  cubic n a /\ rank a = r /\ forall idx, in_range n r idx -> keq (aget a idx) (f idx).

(** Everything stored for o are components of f. *)
Definition stored_ok (g : geometry) (r : nat) (f : oid -> list nat -> K) (o : obj) : Prop :=
  forall c d i a, dget Nat.eqb c (o_comps o) = Some d -> dget cfg_eqb i d = Some a ->
    g_sys g c /\ valid_cfg i /\ length i = r /\ holds (g_n g) r a (with_indices g c i (f c)).

Definition tensor_ok (g : geometry) (m : oid) (o : obj) : Prop :=
  o_metric o = Some m /\ o_rank o = g_r g /\ valid_cfg (o_indices o) /\
  length (o_indices o) = g_r g /\ (exists c, o_coords o = Some c /\ g_sys g c) /\
  stored_ok g (g_r g) (g_T g) o.

Definition metric_ok (g : geometry) (o : obj) : Prop :=
  o_rank o = 2 /\ (o_indices o = [-1; -1]%Z \/ o_indices o = [1; 1]%Z) /\
  (exists c, o_coords o = Some c /\ g_sys g c) /\
  stored_ok g 2 (fun c => mat_comps (g_G g c)) o.

(** Stored Jacobians belong to the present rules. *)
Definition system_ok (g : geometry) (c : oid) (o : obj) : Prop :=
  o_syms o = g_syms g c /\ o_trans o = g_rules g c /\
  forall c' j, dget Nat.eqb c' (o_jacs o) = Some j ->
    exists R, dget Nat.eqb c' (g_rules g c) = Some R /\
      calculate_jacobian (g_syms g c) (g_syms g c') R = Ok j.

(** Metrics are metrics and default coordinates are coordinates. *)
Definition typed (w : world) : Prop :=
  forall i o, obj_of w i = Some o ->
    (forall m, o_metric o = Some m -> cls_of w m = Some CMetric) /\
    (forall c, o_coords o = Some c -> cls_of w c = Some CCoordinates).

(** Every object that is not a coordinate system has a metric and default coordinates. *)
Definition complete (w : world) : Prop :=
  forall i o, obj_of w i = Some o -> cls_of w i <> Some CCoordinates ->
    o_metric o <> None /\ o_coords o <> None.

(** The tensor t and its metric m represent the geometry g. *)
Definition represents (g : geometry) (t m : oid) (w : world) : Prop :=
  typed w /\ cls_of w t = Some CTensor /\ cls_of w m = Some CMetric /\
  (exists o, obj_of w t = Some o /\ tensor_ok g m o) /\
  (exists o, obj_of w m = Some o /\ metric_ok g o) /\
  (forall c, g_sys g c -> cls_of w c = Some CCoordinates /\
     exists o, obj_of w c = Some o /\ system_ok g c o).

(** The metric m represents the metric of the geometry g. *)
Definition metric_represents (g : geometry) (m : oid) (w : world) : Prop :=
  typed w /\ cls_of w m = Some CMetric /\
  (exists o, obj_of w m = Some o /\ metric_ok g o) /\
  (forall c, g_sys g c -> cls_of w c = Some CCoordinates /\
     exists o, obj_of w c = Some o /\ system_ok g c o).

(** Requests, changes of defaults and of labels, and simplification, on any object; the
    metric m does not get a mixed default configuration. *)
Definition history_op (m : oid) (o : op) : Prop :=
  match o with
  | OpGet _ _ _ | OpCoords _ _ | OpName _ _ | OpSymbol _ _ | OpSimplify _ => True
  | OpIndices t i => t = m -> i = [-1; -1]%Z \/ i = [1; 1]%Z
  | _ => False
  end.

Definition after (ops : list op) (w : world) : world :=
  fold_left (fun w o => snd (run_op o w)) ops w.

End SpecHistory.
