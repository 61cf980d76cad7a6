(** Concrete sessions with files. *)
From Coq Require Import QArith Ascii.
From Verif Require Import Base Alg Alg_P Arr Arr_P Spec TensorM Inst Ex WorldM SpecWorld World_P Registry_P ExWorld Witness_World_P
  LexM ParseM InterpM SpecParse ExportM SpecExport ExExport Witness_Export_P Witness2_Export_P FileM SpecFile File_P.
Import List.
Local Open Scope nat_scope.

(** A disk on which every file but "locked" can be written. *)
#[export] Instance ex_disk : Disk := { can_write := fun name => negb (String.eqb name "locked") }.
Definition ex_files : files := [("notes"%string, chars "}"); ("session"%string, [])].

Lemma missing_witness :
  exists (w : @world PolyOps) (d : files) name v w1 w2, reachable w /\ insts w <> [] /\
  (forall fuel, import_from_file fuel (VStr name) (w, d) = (FOSError, (w, d)) /\ import_from_file fuel v (w, d) = (FErr ETypeError, (w, d))) /\
  (forall fuel, import_all_from_file fuel (VStr name) (w, d) = (FOSError, (w1, d))) /\ insts w1 = [] /\
  (forall fuel, import_all_from_file fuel v (w, d) = (FErr ETypeError, (w2, d))) /\ insts w2 = [].
Proof.
  assert (R : registry_ok ex_w) by apply reachable_integrity, ex_w_reachable.
  destruct (clear_instances_spec ex_w R) as (w0 & Cl & I0).
  exists ex_w, ex_files, "missing"%string, VNone, w0, w0. split; [apply ex_w_reachable|].
  split; [intros N; assert (X : length (insts ex_w) =? 0 = false) by vm_cast_no_check (eq_refl false); rewrite N in X; discriminate X|].
  split; [intros fuel; split; [apply (unreadable_file fuel ex_w ex_files R); reflexivity|apply (unreadable_file fuel ex_w ex_files R); discriminate]|].
  assert (H : forall fuel v r, (forall w, (match v with VStr name => fbind (read_file name) (fun x => frun (import_all_from_string fuel x)) | _ => fun s => (FErr ETypeError, s) end) (w, ex_files) = (r, (w, ex_files))) ->
    import_all_from_file fuel v (ex_w, ex_files) = (r, (w0, ex_files))).
  { intros fuel v r E. unfold import_all_from_file, fbind at 1, frun at 1. cbn [fst snd]. rewrite Cl. apply E. }
  split; [intros fuel; apply H; reflexivity|]. split; [exact I0|]. split; [intros fuel; apply H; reflexivity|exact I0].
Qed.

Lemma ex_export_file : can_write "session" = true /\ can_write "locked" = false /\ file_text ex_files "session" = Some [] /\
  is_ok (fst (export_to_string 3 ex_full_w)) = true /\ is_ok (fst (export_all_to_string ex_full_w)) = true /\
  exists e, fst (export_to_string 7 ex_full_w) = Err e.
Proof.
  split; [reflexivity|]. split; [reflexivity|]. split; [reflexivity|]. split; [vmtrue|]. split; [vmtrue|].
  destruct (fst (export_to_string 7 ex_full_w)) as [x|e] eqn:E; [|exists e; reflexivity].
  exfalso. assert (X : is_ok (fst (export_to_string 7 ex_full_w)) = false) by vm_cast_no_check (eq_refl false). rewrite E in X. discriminate X.
Qed.
Lemma ex_import_file : registry_ok ex_full_w /\ exists d, file_text d "saved" = Some (text_of ex_full_w 3) /\
  exists i w', import_from_string 400 (text_of ex_full_w 3) ex_full_w = (Ok i, w').
Proof.
  split; [apply reachable_integrity, ex_full_reachable|]. exists [("saved"%string, text_of ex_full_w 3)]. split; [reflexivity|]. apply ex_import_works.
Qed.
Lemma ex_session_file : session_back ex_full_w (picture ex_full_w) /\ can_write "session" = true /\ length (insts ex_full_w) = 4.
Proof. split; [apply ex_session_again|]. split; [reflexivity|]. apply ex_session_again. Qed.
Lemma ex_unreadable_file : registry_ok ex_full_w /\ insts ex_full_w <> [] /\ file_text ex_files "missing" = None.
Proof.
  split; [apply reachable_integrity, ex_full_reachable|]. split; [|reflexivity]. intros N. assert (X := proj2 ex_session_again). rewrite N in X. discriminate X.
Qed.
