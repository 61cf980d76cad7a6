(** Properties of export to files and import from files. *)
From Coq Require Import QArith Ascii.
From Verif Require Import Base Alg Alg_P Arr Arr_P Spec TensorM Inst Ex WorldM SpecWorld World_P Registry_P ExWorld Witness_World_P
  LexM ParseM InterpM SpecParse ExportM SpecExport ExExport Witness_Export_P Witness2_Export_P FileM SpecFile File_P Witness_File_P.
Import List.
Local Open Scope nat_scope.

(** C154 *)
Theorem C154_export_to_file : forall {A : AlgOps} {O : PyOps} {C : CodeOps} {D : Disk} (w : world) d t name,
  match fst (export_to_string t w) with
  | Err e => export (VStr name) t (w, d) = (FErr e, (w, d))
  | Ok x => if can_write name then exists d', export (VStr name) t (w, d) = (FOk None, (w, d')) /\ written name x d d'
            else export (VStr name) t (w, d) = (FOSError, (w, d))
  end.
Proof. exact (fun A O C D => @export_file A O C D). Qed.
Print Assumptions C154_export_to_file.
Theorem C154_export_all_to_file : forall {A : AlgOps} {O : PyOps} {C : CodeOps} {D : Disk} (w : world) d name,
  match fst (export_all_to_string w) with
  | Err e => export_all (VStr name) (w, d) = (FErr e, (w, d))
  | Ok x => if can_write name then exists d', export_all (VStr name) (w, d) = (FOk None, (w, d')) /\ written name x d d'
            else export_all (VStr name) (w, d) = (FOSError, (w, d))
  end.
Proof. exact (fun A O C D => @export_all_file A O C D). Qed.
Print Assumptions C154_export_all_to_file.
Theorem C154_other_arguments : forall {A : AlgOps} {O : PyOps} {C : CodeOps} {D : Disk} (w : world) d t,
  export VNone t (w, d) = with_files (match export_to_string t w with (Ok x, w') => (Ok (Some x), w') | (Err e, w') => (Err e, w') end) d /\
  export_all VNone (w, d) = with_files (match export_all_to_string w with (Ok x, w') => (Ok (Some x), w') | (Err e, w') => (Err e, w') end) d /\
  forall v, v <> VNone -> (forall name, v <> VStr name) ->
    export v t (w, d) = (FErr ETypeError, (w, d)) /\ export_all v (w, d) = (FErr ETypeError, (w, d)).
Proof. exact (fun A O C D => @export_argument A O C D). Qed.
Print Assumptions C154_other_arguments.
Example C154_concrete : can_write "session" = true /\ can_write "locked" = false /\ file_text ex_files "session" = Some [] /\
  is_ok (fst (export_to_string 3 ex_full_w)) = true /\ is_ok (fst (export_all_to_string ex_full_w)) = true /\
  exists e, fst (export_to_string 7 ex_full_w) = Err e.
Proof. exact ex_export_file. Qed.

(** C155 *)
Theorem C155_import_from_file : forall {A : AlgOps} {O : PyOps} {C : CodeOps} fuel (w : world) d name x,
  file_text d name = Some x ->
  import_from_file fuel (VStr name) (w, d) = with_files (import_from_string fuel x w) d.
Proof. exact (fun A O C => @import_file A O C). Qed.
Print Assumptions C155_import_from_file.
Theorem C155_import_all_from_file : forall {A : AlgOps} {O : PyOps} {C : CodeOps} fuel (w : world) d name x,
  registry_ok w -> file_text d name = Some x ->
  import_all_from_file fuel (VStr name) (w, d) = with_files (import_all_from_string fuel x w) d.
Proof. exact (fun A O C => @import_all_file A O C). Qed.
Print Assumptions C155_import_all_from_file.
Example C155_concrete : registry_ok ex_full_w /\ exists d, file_text d "saved" = Some (text_of ex_full_w 3) /\
  exists i w', import_from_string 400 (text_of ex_full_w 3) ex_full_w = (Ok i, w').
Proof. exact ex_import_file. Qed.
Theorem C155_session_through_a_file : forall {A : AlgOps} {O : PyOps} {C : CodeOps} {D : Disk} {L : CodeLaws} (w : world) P d name,
  session_back w P -> can_write name = true ->
  exists s d', export_all_to_string w = (Ok s, w) /\ export_all (VStr name) (w, d) = (FOk None, (w, d')) /\ written name s d d' /\
  (forall w2, registry_ok w2 -> exists f w3,
    fends (fun n => import_all_from_file n (VStr name)) (w2, d') (FOk (insts w3), (w3, d')) /\
    insts w3 = map f (import_order w) /\ NoDup (insts w3) /\ forall i, In i (insts w) -> copied w3 f i (P i)).
Proof. exact (fun A O C D => @session_through_file A O C D). Qed.
Print Assumptions C155_session_through_a_file.
Example C155_session_concrete : session_back ex_full_w (picture ex_full_w) /\ can_write "session" = true /\ length (insts ex_full_w) = 4.
Proof. exact ex_session_file. Qed.

(** C156.  False: the objects of the session are removed before the file is looked for. *)
Theorem C156_missing_file_refuted :
  exists (w : @world PolyOps) (d : files) name v w1 w2, reachable w /\ insts w <> [] /\
  (forall fuel, import_from_file fuel (VStr name) (w, d) = (FOSError, (w, d)) /\ import_from_file fuel v (w, d) = (FErr ETypeError, (w, d))) /\
  (forall fuel, import_all_from_file fuel (VStr name) (w, d) = (FOSError, (w1, d))) /\ insts w1 = [] /\
  (forall fuel, import_all_from_file fuel v (w, d) = (FErr ETypeError, (w2, d))) /\ insts w2 = [].
Proof. exact missing_witness. Qed.
Print Assumptions C156_missing_file_refuted.
Theorem C156_unreadable_file : forall {A : AlgOps} {O : PyOps} {C : CodeOps} fuel (w : world) d, registry_ok w ->
  (forall name, file_text d name = None ->
     import_from_file fuel (VStr name) (w, d) = (FOSError, (w, d)) /\
     exists w', import_all_from_file fuel (VStr name) (w, d) = (FOSError, (w', d)) /\ insts w' = []) /\
  (forall v, (forall name, v <> VStr name) ->
     import_from_file fuel v (w, d) = (FErr ETypeError, (w, d)) /\
     exists w', import_all_from_file fuel v (w, d) = (FErr ETypeError, (w', d)) /\ insts w' = []).
Proof. exact (fun A O C => @unreadable_file A O C). Qed.
Print Assumptions C156_unreadable_file.
Example C156_concrete : registry_ok ex_full_w /\ insts ex_full_w <> [] /\ file_text ex_files "missing" = None.
Proof. exact ex_unreadable_file. Qed.
