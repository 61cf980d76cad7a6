(** Properties of sessions of all public calls: C157 - C160, and C31, C132, C133 in them. *)
From Coq Require Import Permutation.
From Verif Require Import Alg Arr Spec TensorM WorldM SpecWorld CalcM CurvM GeodM LineM InfoM SpecInfo CurveM ShowM Base LexM ParseM InterpM ExportM Inst Ex ExWorld ExExport InstCurve
  SpecSession Info_P Export8_P Session8_P Witness_Session_P.
Import List.
Local Open Scope string_scope.
Local Open Scope nat_scope.

Section Sessions.
Context {A : AlgOps} {O : PyOps} {C : CodeOps} {N : NumSubs A}.

(** C157 *)
Theorem C157_sessions_keep_the_invariants w kept : session w kept -> integrity w /\ typed w /\ complete w /\ own_metrics w.
Proof. exact (session_sound w kept). Qed.
Theorem C157_reachable_states_are_sessions w : reachable w -> session w [].
Proof. exact (reachable_session w). Qed.

(** C158 *)
Theorem C158_formulas_refer_to_registered_or_deleted w kept x t : session w kept -> In x kept -> c_tensor x = Some t -> held w t.
Proof. exact (kept_formulas w kept x t). Qed.
Theorem C158_references_after_a_call w kept c : session w kept -> call_ok w kept c -> (forall n s, c <> CallImportAll n s) -> c <> CallClear ->
  let w' := snd (run_call c w) in
  (forall t, held w t -> held w' t) /\
  (forall t, t < length (heap w) -> obj_of w t = None -> obj_of w' t = None) /\
  (forall t k, cls_of w t = Some k -> cls_of w' t = Some k) /\
  (forall t, t < length (heap w) -> In t (insts w') -> In t (insts w)).
Proof. exact (references_kept w kept c). Qed.

(** C159 *)
Theorem C159_results_are_registered w kept c t w' : session w kept -> call_ok w kept c -> (forall x symbol ind, c <> CallCalc x "TEMP" symbol ind) ->
  run_call c w = (Ok (Object t), w') -> In t (insts w').
Proof. exact (results_registered w kept c t w'). Qed.

(** C31 in sessions of all public calls. *)
Theorem C31_others_exported_in_sessions w kept i : session w kept -> In i (insts w) -> cls_of w i <> Some CCoordinates ->
  exists s, export_to_string i w = (Ok s, w).
Proof. exact (fun S => others_exported w i (session_healthy w kept S)). Qed.
Theorem C31_sessions_exported w kept : session w kept ->
  ((forall i o j, In i (insts w) -> cls_of w i = Some CCoordinates -> obj_of w i = Some o -> In j (map fst (o_jacs o)) -> obj_of w j <> None) ->
   exists s, export_all_to_string w = (Ok s, w)) /\
  ((exists i o j, In i (insts w) /\ cls_of w i = Some CCoordinates /\ obj_of w i = Some o /\ In j (map fst (o_jacs o)) /\ obj_of w j = None) ->
   export_all_to_string w = (Err EAttributeError, w)).
Proof. exact (fun S => session_exported w (session_healthy w kept S)). Qed.

(** C132 and C133 in sessions of all public calls. *)
Theorem C132_info_entries_in_sessions w kept t o : session w kept -> In t (insts w) -> obj_of w t = Some o ->
  exists d, get_info t w = (Ok d, w) /\
  SpecInfo.entry d "Name" (IText (o_name o)) /\ SpecInfo.entry d "Symbol" (IText (WorldM.o_symbol o)) /\
  SpecInfo.entry d "Type" (IClass (cls_of w t)) /\ SpecInfo.entry d "Rank" (INumber (o_rank o)) /\ SpecInfo.entry d "Default Indices" (IConfig (o_indices o)) /\
  (cls_of w t = Some CCoordinates ->
     SpecInfo.entry d "Default Coordinates For" (INames (map (name_in w) (users_in w o_coords t))) /\
     (o_trans o = [] -> no_entry d "Coordinate Transformations") /\
     (o_trans o <> [] -> SpecInfo.entry d "Coordinate Transformations" (INames (map (fun x => name_in w (fst x)) (o_trans o)))) /\
     no_entry d "Default Coordinates" /\ no_entry d "Metric" /\ no_entry d "Tensors Using This Metric") /\
  (cls_of w t <> Some CCoordinates -> exists c, o_coords o = Some c /\
     SpecInfo.entry d "Default Coordinates" (IText (name_in w c)) /\
     no_entry d "Default Coordinates For" /\ no_entry d "Coordinate Transformations") /\
  (cls_of w t = Some CMetric -> no_entry d "Metric" /\
     SpecInfo.entry d "Tensors Using This Metric" (INames (map (name_in w) (users_in w o_metric t)))) /\
  (cls_of w t <> Some CCoordinates -> cls_of w t <> Some CMetric -> no_entry d "Tensors Using This Metric" /\
     exists m, o_metric o = Some m /\ SpecInfo.entry d "Metric" (IText (name_in w m))) /\
  incl (map fst d) shown_order.
Proof. exact (fun S => info_entries w t o (session_healthy w kept S)). Qed.
Theorem C132_info_printed_in_sessions w kept t : session w kept -> In t (insts w) ->
  exists d ls, get_info t w = (Ok d, w) /\ info t w = (Ok ls, w) /\ Permutation ls d /\ subseq (map fst ls) shown_order.
Proof. exact (fun S => info_printed w t (session_healthy w kept S)). Qed.
Theorem C132_metric_lists_itself_in_sessions w kept t : session w kept -> In t (insts w) -> cls_of w t = Some CMetric ->
  In t (users_in w o_metric t).
Proof. exact (fun S => metric_lists_itself w t (session_healthy w kept S)). Qed.
Theorem C133_listed_users_block_delete_in_sessions w kept t i silent : session w kept -> In t (insts w) -> i <> t ->
  In i (users_in w o_coords t) \/ In i (users_in w o_metric t) -> delete t silent w = (Err EPermissionError, w).
Proof. exact (fun S => listed_not_deleted w t i silent (session_healthy w kept S)). Qed.
End Sessions.
Print Assumptions C157_sessions_keep_the_invariants.
Print Assumptions C157_reachable_states_are_sessions.
Print Assumptions C158_formulas_refer_to_registered_or_deleted.
Print Assumptions C158_references_after_a_call.
Print Assumptions C159_results_are_registered.
Print Assumptions C31_others_exported_in_sessions.
Print Assumptions C31_sessions_exported.
Print Assumptions C132_info_entries_in_sessions.
Print Assumptions C132_info_printed_in_sessions.
Print Assumptions C132_metric_lists_itself_in_sessions.
Print Assumptions C133_listed_users_block_delete_in_sessions.

Example C157_concrete : session (fst ex_after) (snd ex_after) /\ insts (fst ex_after) = [0; 1; 2; 3; 17; 28; 31; 34].
Proof. exact (conj ex_after_session (proj1 ex_after_state)). Qed.
Example C158_concrete : session (fst ex_after) (snd ex_after) /\ map c_tensor (snd ex_after) = [Some 6; Some 4; Some 3] /\
  obj_of (fst ex_after) 6 = None /\ obj_of (fst ex_after) 4 = None /\ obj_of (fst ex_after) 5 = None.
Proof. exact (conj ex_after_session (proj2 ex_after_state)). Qed.
Example C159_concrete : session ex_s2 ex_k2 /\ call_ok ex_s2 ex_k2 (ex_call3 "W") /\ run_call (ex_call3 "W") ex_s2 = (Ok (Object 5), ex_s3 "W").
Proof. exact (conj ex_session2 (conj (ex_ok3 "W") ex_result)). Qed.

(** The exception in C159: a result with the name of the temporary tensors is deleted. *)
Theorem C159_any_name_refuted : exists (w : @world PolyOps) (l : list calc) (x : calc) symbol ind t w',
  session w l /\ call_ok w l (CallCalc x "TEMP" symbol ind) /\
  run_call (CallCalc x "TEMP" symbol ind) w = (Ok (Object t), w') /\ ~ In t (insts w') /\ obj_of w' t = None.
Proof. exact temp_named_witness. Qed.
Print Assumptions C159_any_name_refuted.

(** C160: objects that outlive clear_instances are not registered, and what is made with them
    refers to them. *)
Theorem C160_clear_instances_deletes_refuted : exists (w : @world PolyOps) c name comps symbol t w',
  session w [] /\ obj_of (snd (clear_instances w)) c <> None /\ insts (snd (clear_instances w)) = [] /\
  new_metric name comps (VObj c) (VTuple [-1; -1]%Z) symbol (snd (clear_instances w)) = (Ok t, w') /\
  In t (insts w') /\ ~ In c (insts w') /\ ~ integrity w'.
Proof. exact survivors_witness. Qed.
Print Assumptions C160_clear_instances_deletes_refuted.
