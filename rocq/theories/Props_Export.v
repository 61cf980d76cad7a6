(** Properties of export and import: C31, C83 - C99, C107. *)
From Verif Require Import Alg Arr Spec TensorM Inst Ex WorldM SpecWorld LexM ParseM InterpM SpecParse ExportM SpecExport
  Typed_P Self_P ExWorld Witness_World_P Export6_P Export7_P Export8_P Export9_P ExExport Witness_Export_P Witness2_Export_P.
From Coq Require Import Ascii.
Import List.
Local Open Scope nat_scope.

(** C31.  The property is false: the Jacobians of the removed transformation stay in the
    dictionary, with the deleted coordinates as key. *)
Theorem C31_export_after_deletion_refuted :
  exists (w : @world PolyOps) c d w',
  reachable w /\ In c (insts w) /\ cls_of w c = Some CCoordinates /\ (exists s, export_to_string c w = (Ok s, w)) /\
  delete d true w = (Ok tt, w') /\ In c (insts w') /\ export_to_string c w' = (Err EAttributeError, w') /\
  export_all_to_string w' = (Err EAttributeError, w').
Proof. exact dangling_witness. Qed.
Print Assumptions C31_export_after_deletion_refuted.
(** ... and this is the only reason for which an export fails. *)
Theorem C31_coordinates_exported : forall {A : AlgOps} {O : PyOps} {C : CodeOps} (w : world) i o,
  integrity w -> In i (insts w) -> cls_of w i = Some CCoordinates -> obj_of w i = Some o ->
  ((forall j, In j (map fst (o_jacs o)) -> obj_of w j <> None) -> exists s, export_to_string i w = (Ok s, w)) /\
  ((exists j, In j (map fst (o_jacs o)) /\ obj_of w j = None) -> export_to_string i w = (Err EAttributeError, w)).
Proof. exact (fun A O C => @coordinates_exported A O C). Qed.
Print Assumptions C31_coordinates_exported.
Theorem C31_others_exported : forall {A : AlgOps} {O : PyOps} {C : CodeOps} (w : world) i,
  reachable w -> In i (insts w) -> cls_of w i <> Some CCoordinates -> exists s, export_to_string i w = (Ok s, w).
Proof. exact (fun A O C w i R => @others_exported A O C w i (reachable_healthy w R)). Qed.
Print Assumptions C31_others_exported.
Theorem C31_session_exported : forall {A : AlgOps} {O : PyOps} {C : CodeOps} (w : world), reachable w ->
  ((forall i o j, In i (insts w) -> cls_of w i = Some CCoordinates -> obj_of w i = Some o -> In j (map fst (o_jacs o)) -> obj_of w j <> None) ->
   exists s, export_all_to_string w = (Ok s, w)) /\
  ((exists i o j, In i (insts w) /\ cls_of w i = Some CCoordinates /\ obj_of w i = Some o /\ In j (map fst (o_jacs o)) /\ obj_of w j = None) ->
   export_all_to_string w = (Err EAttributeError, w)).
Proof. exact (fun A O C w R => @session_exported A O C w (reachable_healthy w R)). Qed.
Print Assumptions C31_session_exported.
Example C31_concrete : reachable ex_full_w /\ In 0 (insts ex_full_w) /\ cls_of ex_full_w 0 = Some CCoordinates /\ o_jacs (look ex_full_w 0) <> [] /\
  In 3 (insts ex_full_w) /\ cls_of ex_full_w 3 = Some CTensor.
Proof. exact ex_exportable. Qed.

(** C83 *)
Theorem C83_export_changes_nothing : forall {A : AlgOps} {O : PyOps} {C : CodeOps} (w : world),
  (forall t, snd (export_to_string t w) = w) /\ snd (export_all_to_string w) = w.
Proof. exact (fun A O C => @export_changes_nothing A O C). Qed.
Print Assumptions C83_export_changes_nothing.

(** C84.  The text of a tensor, read in a session with coordinates and a metric of the right
    names, makes the tensor with these. *)
Theorem C84_tensor_round_trip : forall {A : AlgOps} {O : PyOps} {C : CodeOps} {L : CodeLaws} (w : world) n t c m k o a,
  k <> CMetric -> tensor_back w n t c m k o a -> o_name o <> "Options"%string ->
  exists s, export_to_string t w = (Ok s, w) /\
  forall w2 c2 cs m2 ms, registry_ok w2 -> objects_named w2 (name_in w c) = c2 :: cs -> coordinate_system w2 c2 n ->
    objects_named w2 (name_in w m) = ms ++ [m2] -> cls_of w2 m2 = Some CMetric ->
    exists i w3, ends (fun f => import_from_string f s) w2 (Ok i, w3) /\ one_more w2 w3 i k (tensor_copy o c2 m2 a).
Proof. exact (fun A O C => @tensor_again A O C). Qed.
Print Assumptions C84_tensor_round_trip.
Example C84_concrete : tensor_back ex_full_w 2 3 0 2 CTensor (look ex_full_w 3) (comps_at ex_full_w 3) /\
  o_name (look ex_full_w 3) <> "Options"%string /\
  objects_named ex_full_w (name_in ex_full_w 0) = [0] /\ coordinate_system ex_full_w 0 2 /\
  objects_named ex_full_w (name_in ex_full_w 2) = [2].
Proof. exact ex_tensor_again. Qed.

(** C85 *)
Theorem C85_metric_round_trip : forall {A : AlgOps} {O : PyOps} {C : CodeOps} {L : CodeLaws} (w : world) n t c o a gi,
  tensor_back w n t c t CMetric o a -> o_name o <> "Options"%string ->
  (o_indices o = [-1; -1]%Z \/ o_indices o = [1; 1]%Z) -> accepted_metric n a gi ->
  exists s, export_to_string t w = (Ok s, w) /\
  forall w2 c2 cs, registry_ok w2 -> objects_named w2 (name_in w c) = c2 :: cs -> coordinate_system w2 c2 n ->
    exists i w3, ends (fun f => import_from_string f s) w2 (Ok i, w3) /\ one_more w2 w3 i CMetric (metric_copy o i c2 a gi).
Proof. exact (fun A O C => @metric_again A O C). Qed.
Print Assumptions C85_metric_round_trip.
Example C85_concrete : tensor_back ex_full_w 2 2 0 2 CMetric (look ex_full_w 2) (comps_at ex_full_w 2) /\
  accepted_metric 2 (comps_at ex_full_w 2) (inverse_at ex_full_w 2).
Proof. exact ex_metric_again. Qed.

(** C86 *)
Theorem C86_coordinates_round_trip : forall {A : AlgOps} {O : PyOps} {C : CodeOps} {L : CodeLaws} (w : world) n t o,
  coords_back w n t o -> o_name o <> "Options"%string ->
  exists s, export_to_string t w = (Ok s, w) /\
  forall w2, registry_ok w2 -> Forall (fun e => objects_named w2 (name_in w (fst e)) <> []) (o_trans o) ->
    exists i w3, ends (fun f => import_from_string f s) w2 (Ok i, w3) /\
      one_more w2 w3 i CCoordinates (coords_copy o i n (found_rules w w2 o)).
Proof. exact (fun A O C => @coords_again A O C). Qed.
Print Assumptions C86_coordinates_round_trip.
Example C86_concrete : coords_back ex_full_w 2 0 (look ex_full_w 0) /\ o_trans (look ex_full_w 0) <> [] /\ o_jacs (look ex_full_w 0) <> [] /\
  Forall (fun e => objects_named ex_full_w (name_in ex_full_w (fst e)) <> []) (o_trans (look ex_full_w 0)).
Proof. exact ex_coords_again. Qed.

(** C87 *)
Theorem C87_session_round_trip : forall {A : AlgOps} {O : PyOps} {C : CodeOps} {L : CodeLaws} (w : world) P,
  session_back w P ->
  exists s, export_all_to_string w = (Ok s, w) /\
  forall w2, registry_ok w2 -> exists f w3, ends (fun n => import_all_from_string n s) w2 (Ok (insts w3), w3) /\
    insts w3 = map f (import_order w) /\ NoDup (insts w3) /\ forall i, In i (insts w) -> copied w3 f i (P i).
Proof. exact (fun A O C => @session_round_trip A O C). Qed.
Print Assumptions C87_session_round_trip.
Example C87_concrete : session_back ex_full_w (picture ex_full_w) /\ length (insts ex_full_w) = 4.
Proof. exact ex_session_again. Qed.
Theorem C87_empty_session : forall {A : AlgOps} {O : PyOps} {C : CodeOps} (w : world), insts w = [] ->
  exists s, export_all_to_string w = (Ok s, w) /\
  forall w2, registry_ok w2 -> exists w3, ends (fun n => import_all_from_string n s) w2 (Ok [], w3) /\ insts w3 = [].
Proof. exact (fun A O C => @empty_again A O C). Qed.
Print Assumptions C87_empty_session.
Example C87_empty_concrete : insts (@empty_world PolyOps) = [].
Proof. reflexivity. Qed.

(** C88 *)
Theorem C88_import_leaves_no_trace : forall {A : AlgOps} {O : PyOps} {C : CodeOps} {DL : DetLaws A} n s (w : world),
  registry_ok w -> clean_outcome w (import_from_string n s w).
Proof. exact (fun A O C DL => @import_clean A O C DL). Qed.
Print Assumptions C88_import_leaves_no_trace.
Example C88_concrete : registry_ok ex_mixed_w /\ exists s e, import_from_string 400 s ex_mixed_w = (Err e, ex_mixed_w) /\ e <> EFuel.
Proof. exact ex_import_fails. Qed.

(** C89 *)
Theorem C89_import_is_an_operation : forall {A : AlgOps} {O : PyOps} {C : CodeOps} n s (w : world),
  reachable w -> reachable (snd (import_from_string n s w)).
Proof. exact (fun A O C => @import_reachable A O C). Qed.
Print Assumptions C89_import_is_an_operation.
Theorem C89_import_all_keeps_integrity : forall {A : AlgOps} {O : PyOps} {C : CodeOps} n s (w : world),
  integrity w -> integrity (snd (import_all_from_string n s w)).
Proof. exact (fun A O C => @import_all_integrity A O C). Qed.
Print Assumptions C89_import_all_keeps_integrity.
Example C89_concrete : reachable ex_full_w /\ exists i w', import_from_string 400 (text_of ex_full_w 3) ex_full_w = (Ok i, w').
Proof. exact ex_import_works. Qed.

(** C90 *)
Theorem C90_names_are_unique : forall {A : AlgOps} {O : PyOps} {C : CodeOps} n s (w : world) ids w',
  integrity w -> import_all_from_string n s w = (Ok ids, w') -> ids = insts w' /\ NoDup (map (name_in w') ids).
Proof. exact (fun A O C => @import_all_names A O C). Qed.
Print Assumptions C90_names_are_unique.
Example C90_concrete : integrity ex_full_w /\
  exists ids w', import_all_from_string 400 (text_all ex_full_w) ex_full_w = (Ok ids, w') /\ length ids = 4.
Proof. exact ex_import_all_works. Qed.

(** C91.  False: two tensors have the same name. *)
Theorem C91_equal_names_refuted :
  exists (w : @world PolyOps) s ids w', reachable w /\ export_all_to_string w = (Ok s, w) /\
  ends (fun f => import_all_from_string f s) w (Ok ids, w') /\ length (insts w) = 5 /\ length ids = 4.
Proof. exact twins_witness. Qed.
Print Assumptions C91_equal_names_refuted.

(** C92.  False: any text that cannot be read takes the session away. *)
Theorem C92_failed_import_all_refuted :
  exists (w : @world PolyOps) s e w', reachable w /\ insts w <> [] /\ ends (fun f => import_all_from_string f s) w (Err e, w') /\ insts w' = [].
Proof. exact lost_witness. Qed.
Print Assumptions C92_failed_import_all_refuted.
Theorem C92_unreadable_text : forall {A : AlgOps} {O : PyOps} {C : CodeOps} s (w : world) e, registry_ok w ->
  settles (fun n => parse_str n s) (Err e) ->
  ends (fun n => import_from_string n s) w (Err e, w) /\
  exists w', ends (fun n => import_all_from_string n s) w (Err e, w') /\ insts w' = [].
Proof. exact (fun A O C => @unreadable_all A O C). Qed.
Print Assumptions C92_unreadable_text.
Example C92_concrete : registry_ok ex_w /\ exists s e, settles (fun n => @parse_str PolyPy n s) (Err e).
Proof. exact ex_unreadable. Qed.

(** C93.  False: one coordinate. *)
Theorem C93_one_dimension_refuted :
  exists (w : @world PolyOps) i s w', reachable w /\ coordinate_system w i 1 /\ plain (name_in w i) /\
  export_to_string i w = (Ok s, w) /\ ends (fun f => import_from_string f s) w (Err EIndicesDimension, w) /\
  exists s', export_all_to_string w = (Ok s', w) /\ ends (fun f => import_all_from_string f s') w (Err EIndicesDimension, w').
Proof. exact line_witness. Qed.
Print Assumptions C93_one_dimension_refuted.

(** C94.  False: the name is that of the entry with the options. *)
Theorem C94_options_refuted :
  exists (w : @world PolyOps) i s, reachable w /\ insts w = [i] /\ name_in w i = "Options"%string /\
  export_to_string i w = (Ok s, w) /\ ends (fun f => import_from_string f s) w (Err EIndexError, w) /\
  exists s' w', export_all_to_string w = (Ok s', w) /\ ends (fun f => import_all_from_string f s') w (Ok [], w').
Proof. exact options_witness. Qed.
Print Assumptions C94_options_refuted.

(** C95.  False. *)
Theorem C95_empty_symbol_refuted :
  exists (w : @world PolyOps) i s i' w', reachable w /\ cls_of w i = Some CCoordinates /\
  (exists o, obj_of w i = Some o /\ WorldM.o_symbol o = ""%string) /\
  export_to_string i w = (Ok s, w) /\ ends (fun f => import_from_string f s) w (Ok i', w') /\
  exists o', obj_of w' i' = Some o' /\ WorldM.o_symbol o' = "T"%string.
Proof. exact blank_witness. Qed.
Print Assumptions C95_empty_symbol_refuted.

(** C96.  False. *)
Theorem C96_mixed_metric_refuted :
  exists (w : @world PolyOps) i o s, reachable w /\ cls_of w i = Some CMetric /\ obj_of w i = Some o /\ o_indices o = [1; -1]%Z /\
  export_to_string i w = (Ok s, w) /\ ends (fun f => import_from_string f s) w (Err EValueError, w).
Proof. exact mixed_witness. Qed.
Print Assumptions C96_mixed_metric_refuted.

(** C97.  False. *)
Theorem C97_namesakes_refuted :
  exists (w : @world PolyOps) c m s w', reachable w /\ cls_of w c = Some CCoordinates /\ cls_of w m = Some CMetric /\
  In c (insts w) /\ In m (insts w) /\ name_in w c = name_in w m /\
  export_all_to_string w = (Ok s, w) /\ ends (fun f => import_all_from_string f s) w (Err EException, w').
Proof. exact namesake_witness. Qed.
Print Assumptions C97_namesakes_refuted.

(** C98.  False. *)
Theorem C98_unlucky_name_refuted :
  exists (w : @world PolyOps) c d s, reachable w /\ In c (insts w) /\ In d (insts w) /\ cls_of w c = Some CCoordinates /\
  name_in w d = "CoordTransformations"%string /\ plain (name_in w d) /\ NoDup (map (name_in w) (insts w)) /\
  export_to_string c w = (Ok s, w) /\ ends (fun f => import_from_string f s) w (Err ETypeError, w).
Proof. exact unlucky_witness. Qed.
Print Assumptions C98_unlucky_name_refuted.

(** C99 *)
Theorem C99_references_have_their_class : forall {A : AlgOps} (w : world), reachable w -> forall i o, obj_of w i = Some o ->
  (forall m, o_metric o = Some m -> cls_of w m = Some CMetric) /\
  (forall c, o_coords o = Some c -> cls_of w c = Some CCoordinates) /\
  (cls_of w i <> Some CCoordinates -> o_metric o <> None /\ o_coords o <> None).
Proof. exact (fun A => @reachable_classes A). Qed.
Print Assumptions C99_references_have_their_class.
Example C99_concrete : reachable ex_full_w /\ exists o, obj_of ex_full_w 3 = Some o /\ o_metric o = Some 2 /\ o_coords o = Some 0.
Proof. exact ex_classes. Qed.

(** C107 *)
Theorem C107_symbol_of_import : forall {A : AlgOps} {O : PyOps} {C : CodeOps} n s (w : world) i w' d,
  first_object n s d -> import_from_string n s w = (Ok i, w') ->
  exists k o, cls_of w' i = Some k /\ obj_of w' i = Some o /\
    ((forall v, ~ In (VS (chars "Symbol"), v) d) -> WorldM.o_symbol o = usual_symbol k) /\
    (forall d1 d2 v x, d = d1 ++ (VS (chars "Symbol"), v) :: d2 -> (forall u, ~ In (VS (chars "Symbol"), u) d1) ->
       v = VS (chars x) \/ (exists e, v = VE e /\ to_symbol e = Some x) -> WorldM.o_symbol o = x).
Proof. exact (fun A O C => @symbol_of_import A O C). Qed.
Print Assumptions C107_symbol_of_import.
Example C107_concrete : exists d, @first_object PolyPy 400 bare_text d /\ (forall v, ~ In (VS (chars "Symbol"), v) d) /\
  exists i w', import_from_string 400 bare_text ex_full_w = (Ok i, w').
Proof. exact ex_bare. Qed.
