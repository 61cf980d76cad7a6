(** Specification vocabulary for the rules of Defaults.py at real points.  Definitions only. *)
From Coq Require Import Reals.
From Verif Require Export Spec InstReal.
Local Open Scope R_scope.

(** The component depends on these coordinates only. *)
Definition only_of (xs : list string) (e : @K RealOps) : Prop :=
  forall p q, (forall v, In v xs -> p v = q v) -> e p = e q.

Definition cartesian_symbols : list string := ["t"; "x"; "y"; "z"]%string.
Definition spherical_symbols : list string := ["t"; "r"; "theta"; "phi"]%string.

(** The component after the first and then the second rules were substituted, as when components
    are transformed to other coordinates and back. *)
Definition there_and_back (R1 R2 : list (string * @K RealOps)) (e : @K RealOps) : @K RealOps :=
  @subs_seq RealOps R2 (@subs_seq RealOps R1 e).
