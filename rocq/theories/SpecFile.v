(** Vocabulary of the statements about files.  Definitions only. *)
From Verif Require Import Base LexM ParseM InterpM SpecParse WorldM SpecWorld ExportM SpecExport FileM.
From Coq Require Import Ascii.
Import List.

Section SpecFile.
Context {A : AlgOps}.

(** The text of a file. *)
Definition file_text (d : files) (name : string) : option text := dget String.eqb name d.

(** The files [d'] are [d] with the text [t] in the file [name]. *)
Definition written (name : string) (t : text) (d d' : files) : Prop :=
  file_text d' name = Some t /\ forall name', name' <> name -> file_text d' name' = file_text d name'.

(** An outcome of the session as an outcome with files. *)
Definition with_files {X : Type} (r : res X * world) (d : files) : fres X * (world * files) :=
  (match fst r with Ok x => FOk x | Err e => FErr e end, (snd r, d)).

(** Reading ends with this outcome. *)
Definition fends {X : Type} (f : nat -> fM X) (s : world * files) (r : fres X * (world * files)) : Prop :=
  exists n, forall m, n <= m -> f m s = r.
End SpecFile.
