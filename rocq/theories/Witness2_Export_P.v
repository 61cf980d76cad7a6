(** What export and import do in the concrete sessions. *)
From Coq Require Import QArith Ascii.
From Verif Require Import Base Alg Alg_P Arr Arr_P Spec TensorM Inst Ex WorldM SpecWorld World_P Registry_P Typed_P ExWorld Witness_World_P
  LexM ParseM InterpM SpecParse Term2_P Calc_P ExportM SpecExport Export7_P Export8_P ExExport Witness_Export_P.
Import List.
Local Open Scope nat_scope.

(** The texts. *)
Definition text_of (w : @world PolyOps) (i : oid) : text := match fst (export_to_string i w) with Ok s => s | Err _ => [] end.
Definition text_all (w : @world PolyOps) : text := match fst (export_all_to_string w) with Ok s => s | Err _ => [] end.
Lemma text_of_spec w i : is_ok (fst (export_to_string i w)) = true -> export_to_string i w = (Ok (text_of w i), w).
Proof.
  intros H. destruct (out_ok (export_to_string i) w H) as (s & w' & E & E'). rewrite (proj1 (export_changes_nothing w) i) in E'. subst w'.
  unfold text_of. rewrite E. reflexivity.
Qed.
Lemma text_all_spec w : is_ok (fst (export_all_to_string w)) = true -> export_all_to_string w = (Ok (text_all w), w).
Proof.
  intros H. destruct (out_ok export_all_to_string w H) as (s & w' & E & E'). rewrite (proj2 (export_changes_nothing w)) in E'. subst w'.
  unfold text_all. rewrite E. reflexivity.
Qed.

(** An object that cannot be read back into the session it comes from. *)
Definition failsb (w : @world PolyOps) (i : oid) (e : exn) : bool :=
  is_ok (fst (export_to_string i w)) && enough 400 (text_of w i) && is_err e (fst (import_from_string 400 (text_of w i) w)).
Lemma failsb_spec w i e : registry_ok w -> failsb w i e = true ->
  exists s, export_to_string i w = (Ok s, w) /\ ends (fun f => import_from_string f s) w (Err e, w).
Proof.
  intros R H. apply andb_prop in H as [H H3]. apply andb_prop in H as [H1 H2]. exists (text_of w i). split; [apply text_of_spec, H1|].
  destruct (out_err (import_from_string 400 (text_of w i)) e w H3) as (w' & E & _).
  pose proof (import_clean 400 (text_of w i) w R) as Cl. rewrite E in Cl. cbn in Cl. subst w'. rewrite <- E. apply import_ends, H2.
Qed.
(** A session that cannot be read back. *)
Definition all_failsb (w : @world PolyOps) (e : exn) : bool :=
  is_ok (fst (export_all_to_string w)) && enough 400 (text_all w) && is_err e (fst (import_all_from_string 400 (text_all w) w)).
Lemma all_failsb_spec w e : all_failsb w e = true ->
  exists s w', export_all_to_string w = (Ok s, w) /\ ends (fun f => import_all_from_string f s) w (Err e, w').
Proof.
  intros H. apply andb_prop in H as [H H3]. apply andb_prop in H as [H1 H2].
  destruct (out_err (import_all_from_string 400 (text_all w)) e w H3) as (w' & E & _).
  exists (text_all w), w'. split; [apply text_all_spec, H1|]. rewrite <- E. apply import_all_ends, H2.
Qed.
(** A session that is read back with k objects. *)
Definition countb (w : @world PolyOps) (k : nat) : bool :=
  is_ok (fst (export_all_to_string w)) && enough 400 (text_all w) &&
  match fst (import_all_from_string 400 (text_all w) w) with Ok ids => length ids =? k | Err _ => false end.
Lemma countb_spec w k : countb w k = true ->
  exists s ids w', export_all_to_string w = (Ok s, w) /\ ends (fun f => import_all_from_string f s) w (Ok ids, w') /\ length ids = k.
Proof.
  intros H. apply andb_prop in H as [H H3]. apply andb_prop in H as [H1 H2].
  destruct (import_all_from_string 400 (text_all w) w) as [[ids|] w'] eqn:E; [|discriminate]. apply Nat.eqb_eq in H3.
  exists (text_all w), ids, w'. split; [apply text_all_spec, H1|]. split; [|exact H3]. rewrite <- E. apply import_all_ends, H2.
Qed.

(** C31 *)
Lemma dangling_witness :
  exists (w : @world PolyOps) c d w',
  reachable w /\ In c (insts w) /\ cls_of w c = Some CCoordinates /\ (exists s, export_to_string c w = (Ok s, w)) /\
  delete d true w = (Ok tt, w') /\ In c (insts w') /\ export_to_string c w' = (Err EAttributeError, w') /\
  export_all_to_string w' = (Err EAttributeError, w').
Proof.
  assert (Hd : is_ok (fst (delete 1 true ex_dangling_w)) = true) by vmtrue.
  destruct (out_ok (delete 1 true) ex_dangling_w Hd) as (u & w' & E & Ew).
  exists ex_dangling_w, 0, 1, w'. split; [apply ex_dangling_reachable|]. split; [apply inb_list_spec; vmtrue|]. split; [apply clsb_spec; vmtrue|].
  split; [exists (text_of ex_dangling_w 0); apply text_of_spec; vmtrue|]. split; [destruct u; exact E|]. subst w'.
  split; [apply inb_list_spec; vmtrue|]. split.
  - destruct (out_err (export_to_string 0) EAttributeError (snd (delete 1 true ex_dangling_w))) as (w'' & E2 & Ew2); [vmtrue|].
    rewrite (proj1 (export_changes_nothing _) 0) in Ew2. now subst w''.
  - destruct (out_err export_all_to_string EAttributeError (snd (delete 1 true ex_dangling_w))) as (w'' & E2 & Ew2); [vmtrue|].
    rewrite (proj2 (export_changes_nothing _)) in Ew2. now subst w''.
Qed.

(** Objects and sessions that cannot be read back *)
Lemma line_witness :
  exists (w : @world PolyOps) i s w', reachable w /\ coordinate_system w i 1 /\ plain (name_in w i) /\
  export_to_string i w = (Ok s, w) /\ ends (fun f => import_from_string f s) w (Err EIndicesDimension, w) /\
  exists s', export_all_to_string w = (Ok s', w) /\ ends (fun f => import_all_from_string f s') w (Err EIndicesDimension, w').
Proof.
  destruct (failsb_spec ex_line_w 0 EIndicesDimension) as (s & E1 & E2); [apply reachable_integrity, ex_line_reachable|vmtrue|].
  destruct (all_failsb_spec ex_line_w EIndicesDimension) as (s' & w' & E3 & E4); [vmtrue|].
  exists ex_line_w, 0, s, w'. split; [apply ex_line_reachable|]. split; [apply systemb_spec; vmtrue|]. split; [apply plainb_spec; vmtrue|].
  split; [exact E1|]. split; [exact E2|]. exists s'. split; [exact E3|exact E4].
Qed.

Lemma options_witness :
  exists (w : @world PolyOps) i s, reachable w /\ insts w = [i] /\ name_in w i = "Options"%string /\
  export_to_string i w = (Ok s, w) /\ ends (fun f => import_from_string f s) w (Err EIndexError, w) /\
  exists s' w', export_all_to_string w = (Ok s', w) /\ ends (fun f => import_all_from_string f s') w (Ok [], w').
Proof.
  destruct (failsb_spec ex_options_w 0 EIndexError) as (s & E1 & E2); [apply reachable_integrity, ex_options_reachable|vmtrue|].
  destruct (countb_spec ex_options_w 0) as (s' & ids & w' & E3 & E4 & E5); [vmtrue|]. destruct ids; [|discriminate].
  exists ex_options_w, 0, s. split; [apply ex_options_reachable|]. split; [apply list_eqb_spec; vmtrue|]. split; [apply String.eqb_eq; vmtrue|].
  split; [exact E1|]. split; [exact E2|]. exists s', w'. split; [exact E3|exact E4].
Qed.

Definition symbol_isb (s : string) (w : @world PolyOps) (i : oid) : bool :=
  match obj_of w i with Some o => String.eqb (WorldM.o_symbol o) s | None => false end.
Lemma symbol_isb_spec s w i : symbol_isb s w i = true -> exists o, obj_of w i = Some o /\ WorldM.o_symbol o = s.
Proof. unfold symbol_isb. destruct (obj_of w i) as [o|]; [|discriminate]. intros H. apply String.eqb_eq in H. eauto. Qed.

Lemma blank_witness :
  exists (w : @world PolyOps) i s i' w', reachable w /\ cls_of w i = Some CCoordinates /\
  (exists o, obj_of w i = Some o /\ WorldM.o_symbol o = ""%string) /\
  export_to_string i w = (Ok s, w) /\ ends (fun f => import_from_string f s) w (Ok i', w') /\
  exists o', obj_of w' i' = Some o' /\ WorldM.o_symbol o' = "T"%string.
Proof.
  destruct (import_from_string 400 (text_of ex_blank_w 0) ex_blank_w) as [r w'] eqn:E.
  assert (H : match import_from_string 400 (text_of ex_blank_w 0) ex_blank_w with (Ok i, w) => symbol_isb "T" w i | _ => false end = true) by vmtrue.
  rewrite E in H. destruct r as [i'|]; [|discriminate].
  exists ex_blank_w, 0, (text_of ex_blank_w 0), i', w'. split; [apply ex_blank_reachable|]. split; [apply clsb_spec; vmtrue|].
  split; [apply symbol_isb_spec; vmtrue|]. split; [apply text_of_spec; vmtrue|]. split; [rewrite <- E; apply import_ends; vmtrue|]. apply symbol_isb_spec, H.
Qed.

Lemma mixed_witness :
  exists (w : @world PolyOps) i o s, reachable w /\ cls_of w i = Some CMetric /\ obj_of w i = Some o /\ o_indices o = [1; -1]%Z /\
  export_to_string i w = (Ok s, w) /\ ends (fun f => import_from_string f s) w (Err EValueError, w).
Proof.
  destruct (failsb_spec ex_mixed_w 2 EValueError) as (s & E1 & E2); [apply reachable_integrity, ex_mixed_reachable|vmtrue|].
  exists ex_mixed_w, 2, (look ex_mixed_w 2), s. split; [apply ex_mixed_reachable|]. split; [apply clsb_spec; vmtrue|]. split; [apply look_spec; vmtrue|].
  split; [apply cfg_eqb_spec; vmtrue|]. split; [exact E1|exact E2].
Qed.

Lemma namesake_witness :
  exists (w : @world PolyOps) c m s w', reachable w /\ cls_of w c = Some CCoordinates /\ cls_of w m = Some CMetric /\
  In c (insts w) /\ In m (insts w) /\ name_in w c = name_in w m /\
  export_all_to_string w = (Ok s, w) /\ ends (fun f => import_all_from_string f s) w (Err EException, w').
Proof.
  destruct (all_failsb_spec ex_namesake_w EException) as (s & w' & E1 & E2); [vmtrue|].
  exists ex_namesake_w, 0, 2, s, w'. split; [apply ex_namesake_reachable|]. split; [apply clsb_spec; vmtrue|]. split; [apply clsb_spec; vmtrue|].
  split; [apply inb_list_spec; vmtrue|]. split; [apply inb_list_spec; vmtrue|]. split; [apply String.eqb_eq; vmtrue|]. split; [exact E1|exact E2].
Qed.

Lemma twins_witness :
  exists (w : @world PolyOps) s ids w', reachable w /\ export_all_to_string w = (Ok s, w) /\
  ends (fun f => import_all_from_string f s) w (Ok ids, w') /\ length (insts w) = 5 /\ length ids = 4.
Proof.
  destruct (countb_spec ex_twins_w 4) as (s & ids & w' & E1 & E2 & E3); [vmtrue|].
  exists ex_twins_w, s, ids, w'. split; [apply ex_twins_reachable|]. split; [exact E1|]. split; [exact E2|]. split; [apply Nat.eqb_eq; vmtrue|exact E3].
Qed.

Lemma unlucky_witness :
  exists (w : @world PolyOps) c d s, reachable w /\ In c (insts w) /\ In d (insts w) /\ cls_of w c = Some CCoordinates /\
  name_in w d = "CoordTransformations"%string /\ plain (name_in w d) /\ NoDup (map (name_in w) (insts w)) /\
  export_to_string c w = (Ok s, w) /\ ends (fun f => import_from_string f s) w (Err ETypeError, w).
Proof.
  destruct (failsb_spec ex_unlucky_w 0 ETypeError) as (s & E1 & E2); [apply reachable_integrity, ex_unlucky_reachable|vmtrue|].
  exists ex_unlucky_w, 0, 1, s. split; [apply ex_unlucky_reachable|]. split; [apply inb_list_spec; vmtrue|]. split; [apply inb_list_spec; vmtrue|].
  split; [apply clsb_spec; vmtrue|]. split; [apply String.eqb_eq; vmtrue|]. split; [apply plainb_spec; vmtrue|]. split; [apply Export3_P.once_spec; vmtrue|].
  split; [exact E1|exact E2].
Qed.

(** A text that cannot be read takes the whole session away. *)
Lemma lost_witness :
  exists (w : @world PolyOps) s e w', reachable w /\ insts w <> [] /\ ends (fun f => import_all_from_string f s) w (Err e, w') /\ insts w' = [].
Proof.
  pose (s := chars "}").
  assert (En : enough 10 s = true) by vmtrue.
  destruct (@parse_str PolyPy 10 s) as [v|e] eqn:E; [exfalso; assert (X : is_ok (@parse_str PolyPy 10 s) = false) by vm_cast_no_check (eq_refl false); rewrite E in X; discriminate|].
  assert (R : registry_ok ex_w) by apply reachable_integrity, ex_w_reachable.
  destruct (unreadable_all s ex_w e R) as (_ & w' & H1 & H2).
  { exists 10. intros m L. rewrite (read_same 10 m s L (enough_spec 10 s En)). exact E. }
  exists ex_w, s, e, w'. split; [apply ex_w_reachable|]. split; [|split; [exact H1|exact H2]].
  intros N. assert (X : length (insts ex_w) =? 0 = false) by vm_cast_no_check (eq_refl false). rewrite N in X. discriminate.
Qed.

(** Concrete cases *)
Lemma ex_tensor_again : tensor_back ex_full_w 2 3 0 2 CTensor (look ex_full_w 3) (comps_at ex_full_w 3) /\
  o_name (look ex_full_w 3) <> "Options"%string /\
  objects_named ex_full_w (name_in ex_full_w 0) = [0] /\ coordinate_system ex_full_w 0 2 /\
  objects_named ex_full_w (name_in ex_full_w 2) = [2].
Proof.
  pose proof (proj2 (proj2 (proj2 ex_full_back)) 3) as H. destruct H as [H1 H2]; [apply inb_list_spec; vmtrue|]. 
  split.
  { assert (c0 : coords_at ex_full_w 3 = 0) by (apply Nat.eqb_eq; vmtrue). assert (m2 : metric_at ex_full_w 3 = 2) by (apply Nat.eqb_eq; vmtrue).
    rewrite <- c0 at 1. rewrite <- m2 at 1. apply tensorb_spec; [vmtrue|discriminate|apply clsb_spec; vmtrue]. }
  split; [apply String.eqb_neq; vm_cast_no_check (eq_refl false)|]. split; [apply list_eqb_spec; vmtrue|]. split; [apply systemb_spec; vmtrue|apply list_eqb_spec; vmtrue].
Qed.
Lemma ex_metric_again : tensor_back ex_full_w 2 2 0 2 CMetric (look ex_full_w 2) (comps_at ex_full_w 2) /\
  accepted_metric 2 (comps_at ex_full_w 2) (inverse_at ex_full_w 2).
Proof.
  split.
  { assert (c0 : coords_at ex_full_w 2 = 0) by (apply Nat.eqb_eq; vmtrue). assert (m2 : metric_at ex_full_w 2 = 2) by (apply Nat.eqb_eq; vmtrue).
    rewrite <- c0 at 1. rewrite <- m2 at 2. apply tensorb_spec; [vmtrue|discriminate|apply clsb_spec; vmtrue]. }
  apply acceptedb_spec; [vmtrue|reflexivity].
Qed.
Lemma ex_coords_again : coords_back ex_full_w 2 0 (look ex_full_w 0) /\ o_trans (look ex_full_w 0) <> [] /\ o_jacs (look ex_full_w 0) <> [] /\
  Forall (fun e => objects_named ex_full_w (name_in ex_full_w (fst e)) <> []) (o_trans (look ex_full_w 0)).
Proof.
  split; [apply coordsb_spec; vmtrue|].
  split; [intros E; assert (X : length (o_trans (look ex_full_w 0)) =? 0 = false) by vm_cast_no_check (eq_refl false); rewrite E in X; discriminate|].
  split; [intros E; assert (X : length (o_jacs (look ex_full_w 0)) =? 0 = false) by vm_cast_no_check (eq_refl false); rewrite E in X; discriminate|].
  assert (X : forallb (fun e => match objects_named ex_full_w (name_in ex_full_w (fst e)) with [] => false | _ => true end) (o_trans (look ex_full_w 0)) = true) by vmtrue.
  rewrite forallb_forall in X. apply Forall_forall. intros e He E. specialize (X e He). rewrite E in X. discriminate X.
Qed.
Lemma ex_exportable : reachable ex_full_w /\ In 0 (insts ex_full_w) /\ cls_of ex_full_w 0 = Some CCoordinates /\ o_jacs (look ex_full_w 0) <> [] /\
  In 3 (insts ex_full_w) /\ cls_of ex_full_w 3 = Some CTensor.
Proof.
  split; [apply ex_full_reachable|]. split; [apply inb_list_spec; vmtrue|]. split; [apply clsb_spec; vmtrue|]. split; [apply ex_coords_again|].
  split; [apply inb_list_spec; vmtrue|apply clsb_spec; vmtrue].
Qed.
Lemma ex_session_again : session_back ex_full_w (picture ex_full_w) /\ length (insts ex_full_w) = 4.
Proof. split; [apply ex_full_back|apply Nat.eqb_eq; vmtrue]. Qed.
Lemma import_fails n s (w : @world PolyOps) e : registry_ok w -> is_err e (fst (import_from_string n s w)) = true -> import_from_string n s w = (Err e, w).
Proof.
  intros R H. destruct (out_err (import_from_string n s) e w H) as (w' & E & _). pose proof (import_clean n s w R) as Cl. rewrite E in Cl. cbn in Cl. now subst w'.
Qed.
Lemma ex_import_fails : registry_ok ex_mixed_w /\ exists s e, import_from_string 400 s ex_mixed_w = (Err e, ex_mixed_w) /\ e <> EFuel.
Proof.
  assert (R : registry_ok ex_mixed_w) by apply reachable_integrity, ex_mixed_reachable. split; [exact R|].
  exists (text_of ex_mixed_w 2), EValueError. split; [apply import_fails; [exact R|vmtrue]|discriminate].
Qed.
Lemma ex_import_works : reachable ex_full_w /\ exists i w', import_from_string 400 (text_of ex_full_w 3) ex_full_w = (Ok i, w').
Proof.
  split; [apply ex_full_reachable|]. destruct (out_ok (import_from_string 400 (text_of ex_full_w 3)) ex_full_w) as (i & w' & E & _); [vmtrue|eauto].
Qed.
Lemma ex_import_all_works : integrity ex_full_w /\
  exists ids w', import_all_from_string 400 (text_all ex_full_w) ex_full_w = (Ok ids, w') /\ length ids = 4.
Proof.
  split; [apply reachable_integrity, ex_full_reachable|].
  assert (H : match fst (import_all_from_string 400 (text_all ex_full_w) ex_full_w) with Ok ids => length ids =? 4 | _ => false end = true) by vmtrue.
  destruct (import_all_from_string 400 (text_all ex_full_w) ex_full_w) as [[ids|] w'] eqn:E; [|discriminate H]. apply Nat.eqb_eq in H. eauto.
Qed.
Lemma ex_unreadable : registry_ok ex_w /\ exists s e, settles (fun n => @parse_str PolyPy n s) (Err e).
Proof.
  split; [apply reachable_integrity, ex_w_reachable|]. exists (chars "}").
  assert (En : enough 10 (chars "}") = true) by vmtrue.
  destruct (@parse_str PolyPy 10 (chars "}")) as [v|e] eqn:E; [exfalso; assert (X : is_ok (@parse_str PolyPy 10 (chars "}")) = false) by vm_cast_no_check (eq_refl false); rewrite E in X; discriminate X|].
  exists e, 10. intros m L. rewrite (read_same 10 m _ L (enough_spec 10 _ En)). exact E.
Qed.
Lemma reachable_classes {A : AlgOps} (w : world) : reachable w -> forall i o, obj_of w i = Some o ->
  (forall m, o_metric o = Some m -> cls_of w m = Some CMetric) /\
  (forall c, o_coords o = Some c -> cls_of w c = Some CCoordinates) /\
  (cls_of w i <> Some CCoordinates -> o_metric o <> None /\ o_coords o <> None).
Proof.
  intros R i o Ho. destruct (reachable_sound w R) as [T K]. destruct (T i o Ho) as [T1 T2]. split; [exact T1|]. split; [exact T2|]. exact (K i o Ho).
Qed.
Lemma ex_classes : reachable ex_full_w /\ exists o, obj_of ex_full_w 3 = Some o /\ o_metric o = Some 2 /\ o_coords o = Some 0.
Proof.
  split; [apply ex_full_reachable|]. exists (look ex_full_w 3). split; [apply look_spec; vmtrue|].
  split; apply is_id_spec; vmtrue.
Qed.

(** A tensor written by hand, without a symbol. *)
Definition bare_text : text := chars "<|""W""-><|""Components""-><|{{1},""XY""}->{x, y}|>,""DefaultCoords""->""XY"",""DefaultIndices""->{1},""Role""->""Tensor"",""Metric""->""g""|>|>".
Definition bareb : bool :=
  match @parse_str PolyPy 400 bare_text with
  | Ok (VD [(VS n, VD d)]) => negb (text_eqb n (chars "Options")) && forallb (fun p => negb (key_same (fst p) (VS (chars "Symbol")))) d
  | _ => false
  end.
Lemma ex_bare : exists d, @first_object PolyPy 400 bare_text d /\ (forall v, ~ In (VS (chars "Symbol"), v) d) /\
  exists i w', import_from_string 400 bare_text ex_full_w = (Ok i, w').
Proof.
  assert (H : bareb = true) by vmtrue. unfold bareb in H.
  destruct (@parse_str PolyPy 400 bare_text) as [v|] eqn:E; [|discriminate H]. destruct v as [| | |l|]; try discriminate H.
  destruct l as [|[k v] [|? ?]]; [discriminate H| |destruct k; try discriminate H; destruct v; discriminate H].
  destruct k as [|n| | |]; try discriminate H. destruct v as [| | |d|]; try discriminate H.
  apply andb_prop in H as [H1 H2]. exists d. split; [|split].
  - exists [], (VS n), []. split; [exact E|]. split; [constructor|]. intros X. injection X as ->.
    apply Bool.negb_true_iff in H1. unfold text_eqb in H1. destruct (list_eq_dec _ _ _) as [_|D]; [discriminate H1|destruct (D eq_refl)].
  - intros v Hv. rewrite forallb_forall in H2. specialize (H2 _ Hv). cbn [fst key_same] in H2.
    apply Bool.negb_true_iff in H2. unfold text_eqb in H2. destruct (list_eq_dec _ _ _) as [_|D]; [discriminate H2|destruct (D eq_refl)].
  - destruct (out_ok (import_from_string 400 bare_text) ex_full_w) as (i & w' & E' & _); [vmtrue|eauto].
Qed.
