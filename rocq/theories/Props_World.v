(** Properties of sessions: constructors, the registry, deletion, clean-up and the caches of
    components: C15, C18, C21, C22, C25 - C30, C33 - C35. *)
From Coq Require Import QArith.
From Verif Require Import Alg Arr Spec TensorM WorldM SpecWorld Metric_P Registry_P Inst Ex ExWorld Witness_World_P.
Local Open Scope nat_scope.

(** C15.  The property is false: a request for the inverse metric in new coordinates raises
    KeyError, although the request for the metric succeeds; after it, the request for the
    metric fails too. *)
Theorem C15_metric_requested_first_refuted :
  exists (w : @world PolyOps) m c,
  reachable w /\ cls_of w m = Some CMetric /\
  (exists a w', get_components m (Some c) (Some [-1; -1]%Z) w = (Ok a, w')) /\
  exists w', get_components m (Some c) (Some [1; 1]%Z) w = (Err EKeyError, w') /\
    exists w'', get_components m (Some c) (Some [-1; -1]%Z) w' = (Err EKeyError, w'').
Proof. exact metric_first_witness. Qed.
Print Assumptions C15_metric_requested_first_refuted.

(** C16, in a session: what the constructor has stored when it returns. *)
Theorem C16_new_metric_stored :
  forall (A : AlgOps) (L : AlgLaws A) (IL : InvLaws A) name comps coords (l : list Z) symbol
         (w : world) t w' n g,
  new_metric name comps coords (VTuple l) symbol w = (Ok t, w') ->
  as_array (mat_to_array comps) = Some g -> square n g ->
  (l = [-1; -1]%Z \/ l = [1; 1]%Z) /\
  exists c o d, coords = VObj c /\ obj_of w' t = Some o /\ o_coords o = Some c /\
    o_metric o = Some t /\ o_indices o = l /\ dget Nat.eqb c (o_comps o) = Some d /\
    dget cfg_eqb l d = Some g /\
    dget cfg_eqb [1; -1]%Z d = Some (eye n) /\ dget cfg_eqb [-1; 1]%Z d = Some (eye n) /\
    exists gi, dget cfg_eqb (map Z.opp l) d = Some gi /\ square n gi /\
      inverse_fun n (mfun g) (mfun gi).
Proof. exact (@new_metric_session). Qed.
Print Assumptions C16_new_metric_stored.

Example C16_stored_hypotheses_met :
  (exists t w', new_metric (ex_str "h") (VArr ex_g) (VObj 0) (VTuple [-1; -1]%Z) (ex_str "h") ex_w
                = (Ok t, w')) /\ square 2 ex_g.
Proof. exact ex_metric_stored. Qed.

(** C18.  The property is false: the components with all indices down in coordinates c'
    differ after a request in c' and after a request in the own coordinates c; without
    either request they cannot be obtained. *)
Theorem C18_christoffel_history_refuted :
  exists (w : @world PolyOps) t c c' idx,
  reachable w /\ cls_of w t = Some CChristoffel /\
  (let w1 := snd (get_components t (Some c') (Some [1; -1; -1]%Z) w) in
   let w2 := snd (get_components t (Some c) (Some [-1; -1; -1]%Z) w) in
   exists a b w1' w2',
     get_components t (Some c') (Some [-1; -1; -1]%Z) w1 = (Ok a, w1') /\
     get_components t (Some c') (Some [-1; -1; -1]%Z) w2 = (Ok b, w2') /\
     ~ keq (aget a idx) (aget b idx)) /\
  exists w', get_components t (Some c') (Some [-1; -1; -1]%Z) w = (Err EKeyError, w').
Proof. exact christoffel_history_witness. Qed.
Print Assumptions C18_christoffel_history_refuted.

(** C21.  The property is false: the components returned in c' are not the ones that the
    rules now stored for c', with the Jacobian of these rules, give. *)
Theorem C21_replaced_rules_refuted :
  exists (w : @world PolyOps) t c c' o x y d rules a J Ji C b b' w' i,
  reachable w /\ obj_of w t = Some o /\ obj_of w c = Some x /\ obj_of w c' = Some y /\
  dget Nat.eqb c (o_comps o) = Some d /\ dget cfg_eqb [-1]%Z d = Some a /\
  dmem Nat.eqb c' (o_comps o) = false /\ dget Nat.eqb c' (o_trans x) = Some rules /\
  calculate_jacobian (o_syms x) (o_syms y) rules = Ok (J, Ji, C) /\
  transform J Ji rules 1 [-1]%Z a = Ok b /\
  get_components t (Some c') (Some [-1]%Z) w = (Ok b', w') /\ ~ keq (aget b' [i]) (aget b [i]).
Proof. exact stale_jacobian_witness. Qed.
Print Assumptions C21_replaced_rules_refuted.

(** C22.  The property is false: without rules for c' and without components in c' the
    request raises KeyError, not TransformationError. *)
Theorem C22_removed_transformation_refuted :
  exists (w : @world PolyOps) t c c' o x w',
  reachable w /\ obj_of w t = Some o /\ o_coords o = Some c /\ obj_of w c = Some x /\
  dmem Nat.eqb c' (o_trans x) = false /\ dmem Nat.eqb c' (o_comps o) = false /\
  get_components t (Some c') (Some [-1]%Z) w = (Err EKeyError, w').
Proof. exact removed_rules_witness. Qed.
Print Assumptions C22_removed_transformation_refuted.

(** C25.  Constructors that fail change nothing ([clean_outcome]).  The components of a metric
    are a well-formed array; a matrix whose determinant does not vanish can be inverted. *)
Theorem C25_failed_coordinates_leave_no_trace :
  forall (A : AlgOps) (w : world) (name comps indices symbol : pyval) (tr : list (oid * list rarg)),
  registry_ok w -> clean_outcome w (new_coordinates name comps indices symbol tr w).
Proof. exact (@new_coordinates_clean). Qed.
Print Assumptions C25_failed_coordinates_leave_no_trace.

Theorem C25_failed_tensor_leaves_no_trace :
  forall (A : AlgOps) (w : world) (name comps metric coords indices symbol : pyval),
  registry_ok w -> clean_outcome w (new_tensor name comps metric coords indices symbol w).
Proof. exact (fun A => @new_tensor_clean A CTensor). Qed.
Print Assumptions C25_failed_tensor_leaves_no_trace.

Theorem C25_failed_metric_leaves_no_trace :
  forall (A : AlgOps) (DL : DetLaws A) (w : world) (name comps coords : pyval) (l : list Z) (symbol : pyval),
  registry_ok w -> (forall a, array_like comps a -> awf a) ->
  clean_outcome w (new_metric name comps coords (VTuple l) symbol w).
Proof. exact (@new_metric_clean). Qed.
Print Assumptions C25_failed_metric_leaves_no_trace.

Example C25_hypotheses_met : registry_ok ex_w /\ (forall a, array_like (VArr ex_g) a -> awf a) /\
  exists i w', new_metric (ex_str "h") (VArr ex_g) (VObj 0) (VTuple [-1; -1]%Z) (ex_str "h") ex_w = (Ok i, w').
Proof. exact ex_metric_ctor. Qed.

(** C26.  The property is false: without indices the call fails after the metric was
    registered. *)
Theorem C26_failed_metric_registered_refuted :
  exists (w : @world PolyOps) name comps coords symbol w',
  reachable w /\ new_metric name comps coords VNone symbol w = (Err ETypeError, w') /\ insts w' <> insts w.
Proof. exact metric_none_witness. Qed.
Print Assumptions C26_failed_metric_registered_refuted.

(** C27.  [n]: the rank of the components, [src]: the number of existing indices. *)
Theorem C27_index_tuples_validated :
  forall (A : AlgOps) (v : pyval) (n src : option nat),
  (v = VNone -> validate_indices v n src = Ok tt) /\
  (forall l, v = VTuple l ->
     (validate_indices v n src = Ok tt <->
      valid_cfg l /\ (forall k, n = Some k -> length l = k) /\ (forall k, src = Some k -> length l = k)) /\
     (~ valid_cfg l -> validate_indices v n src = Err EIndicesValue) /\
     (valid_cfg l -> (exists k, (n = Some k \/ src = Some k) /\ length l <> k) ->
      validate_indices v n src = Err EIndicesDimension)) /\
  (v <> VNone -> (forall l, v <> VTuple l) -> validate_indices v n src = Err ETypeError).
Proof. exact (@validate_indices_spec). Qed.
Print Assumptions C27_index_tuples_validated.

Example C27_cases :
  validate_indices (A := PolyOps) (VTuple [1; -1]%Z) (Some 2) None = Ok tt /\
  validate_indices (A := PolyOps) (VTuple [1; 2]%Z) (Some 1) None = Err EIndicesValue /\
  validate_indices (A := PolyOps) (VTuple [1; -1]%Z) None (Some 3) = Err EIndicesDimension /\
  validate_indices (A := PolyOps) (VStr "x") (Some 1) None = Err ETypeError.
Proof. repeat split; reflexivity. Qed.

(** C28. *)
Theorem C28_tensor_arguments_validated :
  forall (A : AlgOps) (w : world) (name comps metric coords indices symbol : pyval),
  (exists i w', new_tensor name comps metric coords indices symbol w = (Ok i, w')) <->
  exists m c n a,
    metric = VObj m /\ cls_of w m = Some CMetric /\
    coords = VObj c /\ coordinate_system w c n /\
    (exists s, name = VStr s) /\ (exists s, symbol = VStr s \/ symbol = VSymbol s) /\
    array_like comps a /\ Forall (fun d => d = n) (shape a) /\
    (indices = VNone \/ index_tuple (rank a) indices).
Proof. exact (@new_tensor_valid). Qed.
Print Assumptions C28_tensor_arguments_validated.

Theorem C28_new_tensor_attributes :
  forall (A : AlgOps) (w : world) (name comps metric coords indices symbol : pyval) i w',
  new_tensor name comps metric coords indices symbol w = (Ok i, w') ->
  exists m c a o, metric = VObj m /\ coords = VObj c /\ array_like comps a /\
    obj_of w' i = Some o /\ cls_of w' i = Some CTensor /\
    o_metric o = Some m /\ o_coords o = Some c /\ o_rank o = rank a /\
    o_indices o = match indices with VTuple l => l | _ => repeat (-1)%Z (rank a) end /\
    o_comps o = [(c, [(o_indices o, a)])] /\ (exists s, name = VStr s /\ o_name o = s).
Proof. exact (@new_tensor_object). Qed.
Print Assumptions C28_new_tensor_attributes.

Example C28_cases :
  (exists i w', new_tensor (ex_str "T") (VMat ex_mat) (VObj 2) (VObj 0) VNone (VSymbol "T") ex_w = (Ok i, w')) /\
  ~ (exists i w', new_tensor (ex_str "T") (VMat ex_mat) (VObj 2) (VObj 0) (VTuple [-1]%Z) (VSymbol "T") ex_w = (Ok i, w')).
Proof. exact ex_tensor_ctor. Qed.

(** C29. *)
Theorem C29_delete_exactly_unused :
  forall (A : AlgOps) (w : world) (t : oid) (silent : bool),
  registry_ok w -> In t (insts w) ->
  (used w t -> delete t silent w = (Err EPermissionError, w)) /\
  (~ used w t -> exists w', delete t silent w = (Ok tt, w') /\
     insts w' = filter (fun i => negb (i =? t)) (insts w) /\
     obj_of w' t = None /\ (forall j, j <> t -> obj_of w' j = obj_of w j)).
Proof. exact (@delete_spec). Qed.
Print Assumptions C29_delete_exactly_unused.

Example C29_hypotheses_met :
  registry_ok ex_w /\ In 2 (insts ex_w) /\ used ex_w 2 /\ In 3 (insts ex_w) /\ ~ used ex_w 3 /\ used ex_w 1.
Proof. exact ex_delete. Qed.

(** C30.  [integrity]: no object is registered twice, every registered object is alive, and
    it refers to registered objects only. *)
Theorem C30_referential_integrity :
  forall (A : AlgOps) (w : world), reachable w -> integrity w.
Proof. exact (@reachable_integrity). Qed.
Print Assumptions C30_referential_integrity.

Example C30_hypotheses_met : reachable ex_w /\ reachable ex_stale_w /\ reachable ex_temp_w.
Proof. exact (conj ex_w_reachable (conj ex_stale_reachable ex_temp_reachable)). Qed.

(** C33. *)
Theorem C33_temporaries_cleanup_law :
  forall (A : AlgOps) (w : world) (pre block post : list oid),
  registry_ok w -> insts w = pre ++ block ++ post ->
  Forall (named w "TEMP") block -> Forall (fun i => ~ named w "TEMP" i) pre ->
  Forall (fun i => ~ named w "TEMP" i) post -> Forall (fun i => ~ used w i) block ->
  exists w' left, clean_temporaries w = (Ok tt, w') /\ insts w' = pre ++ left ++ post /\
    subseq left block /\ length left = length block / 4 /\ (left = [] <-> length block <= 3) /\
    (forall i, In i (insts w') -> obj_of w' i = obj_of w i).
Proof. exact (@clean_temporaries_law). Qed.
Print Assumptions C33_temporaries_cleanup_law.

Example C33_hypotheses_met :
  registry_ok ex_temp_w /\ insts ex_temp_w = [0; 1; 2; 3] ++ [4; 5; 6; 7; 8; 9; 10; 11; 12] ++ [13] /\
  Forall (named ex_temp_w "TEMP") [4; 5; 6; 7; 8; 9; 10; 11; 12] /\
  Forall (fun i => ~ named ex_temp_w "TEMP" i) [0; 1; 2; 3] /\ Forall (fun i => ~ named ex_temp_w "TEMP" i) [13] /\
  Forall (fun i => ~ used ex_temp_w i) [4; 5; 6; 7; 8; 9; 10; 11; 12].
Proof. exact ex_temp_hyps. Qed.

(** C34. *)
Theorem C34_delete_results_law :
  forall (A : AlgOps) (w : world) (silent : bool) (pre block post : list oid),
  registry_ok w -> insts w = pre ++ block ++ post ->
  Forall (named w "Result") block -> Forall (fun i => ~ named w "Result" i) pre ->
  Forall (fun i => ~ named w "Result" i) post -> Forall (fun i => ~ used w i) block ->
  exists w' left, delete_results silent w = (Ok tt, w') /\ insts w' = pre ++ left ++ post /\
    subseq left block /\ length left = length block / 16 /\
    (forall i, In i (insts w') -> obj_of w' i = obj_of w i).
Proof. exact (@delete_results_law). Qed.
Print Assumptions C34_delete_results_law.

Theorem C34_delete_results_only_results :
  forall (A : AlgOps) (w : world) (silent : bool), registry_ok w ->
  exists w', delete_results silent w = (Ok tt, w') /\ subseq (insts w') (insts w) /\
    (forall i, In i (insts w) -> ~ In i (insts w') -> named w "Result" i) /\
    (forall i, In i (insts w') -> obj_of w' i = obj_of w i).
Proof. exact (@delete_results_only). Qed.
Print Assumptions C34_delete_results_only_results.

Example C34_hypotheses_met :
  registry_ok ex_results_w /\ insts ex_results_w = [0; 1; 2; 3] ++ seq 4 17 ++ [21] /\
  Forall (named ex_results_w "Result") (seq 4 17) /\
  Forall (fun i => ~ named ex_results_w "Result" i) [0; 1; 2; 3] /\ Forall (fun i => ~ named ex_results_w "Result" i) [21] /\
  Forall (fun i => ~ used ex_results_w i) (seq 4 17).
Proof. exact ex_results_hyps. Qed.

(** C35. *)
Theorem C35_clear_instances_empties :
  forall (A : AlgOps) (w : world), registry_ok w ->
  exists w', clear_instances w = (Ok tt, w') /\ insts w' = [].
Proof. exact (@clear_instances_spec). Qed.
Print Assumptions C35_clear_instances_empties.

Example C35_hypotheses_met : registry_ok ex_results_w /\ length (insts ex_results_w) = 22.
Proof. exact (conj (proj1 ex_results_hyps) (f_equal (@length _) (proj1 (proj2 ex_results_hyps)))). Qed.
