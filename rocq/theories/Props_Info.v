(** Properties of info(): C132 - C133. *)
From Coq Require Import Permutation.
From Verif Require Import Alg Arr TensorM Inst WorldM SpecWorld Self_P ExWorld InfoM SpecInfo Info_P Witness_Info_P.

(** C132: in every session info() answers for every registered object, changes nothing, and shows
    the entries of the class with the values of the session. *)
Theorem C132_info_entries :
  forall (A : AlgOps) (w : world) (t : oid) (o : obj), reachable w -> In t (insts w) -> obj_of w t = Some o ->
  exists d, get_info t w = (Ok d, w) /\
  entry d "Name" (IText (o_name o)) /\ entry d "Symbol" (IText (o_symbol o)) /\
  entry d "Type" (IClass (cls_of w t)) /\ entry d "Rank" (INumber (o_rank o)) /\ entry d "Default Indices" (IConfig (o_indices o)) /\
  (cls_of w t = Some CCoordinates ->
     entry d "Default Coordinates For" (INames (map (name_in w) (users_in w o_coords t))) /\
     (o_trans o = [] -> no_entry d "Coordinate Transformations") /\
     (o_trans o <> [] -> entry d "Coordinate Transformations" (INames (map (fun x => name_in w (fst x)) (o_trans o)))) /\
     no_entry d "Default Coordinates" /\ no_entry d "Metric" /\ no_entry d "Tensors Using This Metric") /\
  (cls_of w t <> Some CCoordinates -> exists c, o_coords o = Some c /\
     entry d "Default Coordinates" (IText (name_in w c)) /\
     no_entry d "Default Coordinates For" /\ no_entry d "Coordinate Transformations") /\
  (cls_of w t = Some CMetric -> no_entry d "Metric" /\
     entry d "Tensors Using This Metric" (INames (map (name_in w) (users_in w o_metric t)))) /\
  (cls_of w t <> Some CCoordinates -> cls_of w t <> Some CMetric -> no_entry d "Tensors Using This Metric" /\
     exists m, o_metric o = Some m /\ entry d "Metric" (IText (name_in w m))) /\
  incl (map fst d) shown_order.
Proof. exact (fun A w t o R => @info_entries A w t o (reachable_healthy w R)). Qed.
Print Assumptions C132_info_entries.

Example C132_hypotheses_met : reachable ex_w /\ In 0 (insts ex_w) /\ In 2 (insts ex_w) /\ In 3 (insts ex_w) /\
  (exists o, obj_of ex_w 2 = Some o) /\ cls_of ex_w 0 = Some CCoordinates /\ cls_of ex_w 2 = Some CMetric /\ cls_of ex_w 3 = Some CTensor /\
  users_in ex_w o_coords 0 = [2; 3] /\ users_in ex_w o_metric 2 = [2; 3].
Proof. exact ex_info_case. Qed.

(** The users are the registered objects with this attribute, in the order of the registry. *)
Theorem C132_users_listed :
  forall (A : AlgOps) (w : world) (attr : obj -> option oid) (t : oid),
  (forall i, In i (users_in w attr t) <-> In i (insts w) /\ exists o, obj_of w i = Some o /\ attr o = Some t) /\
  subseq (users_in w attr t) (insts w).
Proof. exact (@users_exactly). Qed.
Print Assumptions C132_users_listed.

(** Every entry is printed once, in the order of INFO_ORDER. *)
Theorem C132_info_printed :
  forall (A : AlgOps) (w : world) (t : oid), reachable w -> In t (insts w) ->
  exists d ls, get_info t w = (Ok d, w) /\ info t w = (Ok ls, w) /\ Permutation ls d /\ subseq (map fst ls) shown_order.
Proof. exact (fun A w t R => @info_printed A w t (reachable_healthy w R)). Qed.
Print Assumptions C132_info_printed.

(** "Tensors Using This Metric" names the metric itself, in every session ... *)
Theorem C132_metric_lists_itself :
  forall (A : AlgOps) (w : world) (t : oid), reachable w -> In t (insts w) -> cls_of w t = Some CMetric -> In t (users_in w o_metric t).
Proof. exact (fun A w t R => @metric_lists_itself A w t (reachable_healthy w R)). Qed.
Print Assumptions C132_metric_lists_itself.

(** ... also if nothing else uses it. *)
Theorem C132_unused_metric_shown_unused_refuted :
  exists w : @world PolyOps, reachable w /\ exists t, In t (insts w) /\ cls_of w t = Some CMetric /\
  (forall i o, In i (insts w) -> i <> t -> obj_of w i = Some o -> ~ refers o t) /\
  users_in w o_metric t = [t].
Proof. exact ex_unused_metric. Qed.
Print Assumptions C132_unused_metric_shown_unused_refuted.

(** C133: an object that info() lists as a user of another one keeps it from being deleted ... *)
Theorem C133_listed_users_block_delete :
  forall (A : AlgOps) (w : world) (t i : oid) (silent : bool), reachable w -> In t (insts w) -> i <> t ->
  In i (users_in w o_coords t) \/ In i (users_in w o_metric t) -> delete t silent w = (Err EPermissionError, w).
Proof. exact (fun A w t i s R => @listed_not_deleted A w t i s (reachable_healthy w R)). Qed.
Print Assumptions C133_listed_users_block_delete.

Example C133_hypotheses_met : reachable ex_w /\ In 2 (insts ex_w) /\ 3 <> 2 /\ In 3 (users_in ex_w o_metric 2).
Proof.
  destruct ex_info_case as (R & _ & H & _ & _ & _ & _ & _ & _ & E). split; [exact R|]. split; [exact H|].
  split; [discriminate|]. rewrite E. right. left. reflexivity.
Qed.

(** ... but an object with no user in the list can be kept from it as well. *)
Theorem C133_unlisted_deletable_refuted :
  exists w : @world PolyOps, reachable w /\ exists t, In t (insts w) /\ cls_of w t = Some CCoordinates /\
  users_in w o_coords t = [] /\ users_in w o_metric t = [] /\ forall silent, delete t silent w = (Err EPermissionError, w).
Proof. exact ex_unlisted_kept. Qed.
Print Assumptions C133_unlisted_deletable_refuted.
