(** Export to files and import from files: Export.py 264-275, 299-341, 364-379 and 453-471,
    OGReObject.py 171-201.  Definitions only.
    Simplifications: a file is its text, written as it is (as on Linux); which files can be
    opened for writing is an oracle, a file that exists can be read and decoded, and writing
    ends; every OSError is one outcome; the message about the export is left out. *)
From Verif Require Import Base LexM ParseM InterpM WorldM ExportM.
From Coq Require Import Ascii.
Import List.

(** The files that open(name, "w") can open. *)
Class Disk := { can_write : string -> bool }.

Section FileM.
Context {A : AlgOps} {O : PyOps} {C : CodeOps} {D : Disk}.

Definition files : Type := list (string * text).

(** An outcome: a value, an exception of the package or of Python, or an OSError. *)
Inductive fres (X : Type) := FOk (x : X) | FErr (e : exn) | FOSError.
Arguments FOk {X} x.
Arguments FErr {X} e.
Arguments FOSError {X}.
Definition fstate : Type := world * files.
Definition fM (X : Type) : Type := fstate -> fres X * fstate.
Definition fbind {X Y} (m : fM X) (k : X -> fM Y) : fM Y := fun s =>
  match m s with
  | (FOk x, s') => k x s'
  | (FErr e, s') => (FErr e, s')
  | (FOSError, s') => (FOSError, s')
  end.
Definition frun {X} (m : M X) : fM X := fun s =>
  match m (fst s) with
  | (Ok x, w) => (FOk x, (w, snd s))
  | (Err e, w) => (FErr e, (w, snd s))
  end.

(** with open(filename, "w") as f: f.write(t) *)
Definition write_file (name : string) (t : text) : fM unit := fun s =>
  if can_write name then (FOk tt, (fst s, dset String.eqb name t (snd s))) else (FOSError, s).

(** with open(filename, "r") as f: f.read().  A line feed is read for a carriage return, alone
    or followed by a line feed. *)
Definition cr : ascii := ascii_of_nat 13.
Definition lf : ascii := ascii_of_nat 10.
Fixpoint line_ends (t : text) : text :=
  match t with
  | [] => []
  | c :: t' =>
    if Ascii.eqb c cr
    then lf :: match t' with
               | d :: t'' => if Ascii.eqb d lf then line_ends t'' else line_ends t'
               | [] => []
               end
    else c :: line_ends t'
  end.
Definition read_file (name : string) : fM text := fun s =>
  match dget String.eqb name (snd s) with
  | Some t => (FOk (line_ends t), s)
  | None => (FOSError, s)
  end.

(** OGReObject.py 171-201 and Export.py 264-275: the text is made before the file is opened. *)
Definition export (filename : pyval) (t : oid) : fM (option text) :=
  match filename with
  | VNone => fbind (frun (export_to_string t)) (fun x => fun s => (FOk (Some x), s))
  | VStr name => fbind (frun (export_to_string t)) (fun x =>
                 fbind (write_file name x) (fun _ s => (FOk None, s)))
  | _ => fun s => (FErr ETypeError, s)
  end.

(** Export.py 299-341 *)
Definition export_all (filename : pyval) : fM (option text) :=
  match filename with
  | VNone => fbind (frun export_all_to_string) (fun x => fun s => (FOk (Some x), s))
  | VStr name => fbind (frun export_all_to_string) (fun x =>
                 fbind (write_file name x) (fun _ s => (FOk None, s)))
  | _ => fun s => (FErr ETypeError, s)
  end.

(** Export.py 364-379 *)
Definition import_from_file (fuel : nat) (filename : pyval) : fM oid :=
  match filename with
  | VStr name => fbind (read_file name) (fun x => frun (import_from_string fuel x))
  | _ => fun s => (FErr ETypeError, s)
  end.

(** Export.py 453-471: the session is cleared first. *)
Definition import_all_from_file (fuel : nat) (filename : pyval) : fM (list oid) :=
  fbind (frun clear_instances) (fun _ =>
  match filename with
  | VStr name => fbind (read_file name) (fun x => frun (import_all_from_string fuel x))
  | _ => fun s => (FErr ETypeError, s)
  end).

End FileM.
Arguments FOk {X} x.
Arguments FErr {X} e.
Arguments FOSError {X}.
