(** Vocabulary of C219.  Definitions only. *)
From Verif Require Import Alg Base LexM ParseM InterpM WorldM ExportM.
From Coq Require Import Ascii.
Import List.
Local Open Scope string_scope.
Local Open Scope list_scope.

(** The roles of Export.py 176-191. *)
Definition role_names : list string := ["Coordinates"; "Metric"; "Tensor"; "Calculated"; "Lagrangian"; "Christoffel"; "GeodesicFromChristoffel"; "GeodesicFromLagrangian";
  "GeodesicWithTimeParameter"; "NormSquared"; "Riemann"; "Ricci Tensor"; "Ricci Scalar"; "Einstein"].

Section SpecAnnounce.
Context {O : PyOps}.

(** What every object has, and what it has if it is neither coordinates nor a metric. *)
Definition complete (tensor : val) : Prop := exists d role, tensor = VD d /\ In (VS (chars "Role"), VS (chars role)) d /\
  (exists v, In (VS (chars "DefaultCoords"), v) d) /\ (exists v, In (VS (chars "DefaultIndices"), v) d) /\ (exists v, In (VS (chars "Components"), v) d) /\
  (role <> "Coordinates" -> role <> "Metric" -> exists v, In (VS (chars "Metric"), v) d).

End SpecAnnounce.
