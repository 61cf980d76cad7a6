(** Specification vocabulary for missing rules.  Definitions only. *)
From Verif Require Export SpecPrefer.
Local Open Scope nat_scope.

Section SpecMissing.
Context {A : AlgOps}.

(** The tensor [t] has the default coordinates [c]. *)
Definition lives_in (w : world) (t c : oid) : Prop := exists o, obj_of w t = Some o /\ o_coords o = Some c.
(** The metric of [t] is [m]. *)
Definition metric_is (w : world) (t m : oid) : Prop := exists o, obj_of w t = Some o /\ o_metric o = Some m.

(** There are components of [t] in the coordinates [c] already. *)
Definition stored_in (w : world) (t c : oid) : Prop := exists o, obj_of w t = Some o /\ dget Nat.eqb c (o_comps o) <> None.

(** Rules that the components of [t] in the coordinates [c'] may need are missing: from the default
    coordinates of [t] to [c'], or from those of its metric to [c'] or to those of [t]. *)
Definition missing_own (w : world) (t c' : oid) : Prop :=
  exists c, lives_in w t c /\ ~ has_rules w c c'.
Definition missing_metric (w : world) (t c' : oid) : Prop :=
  exists m c, metric_is w t m /\ lives_in w m c /\ ~ has_rules w c c'.
Definition missing (w : world) (t c' : oid) : Prop :=
  missing_own w t c' \/ missing_metric w t c' \/ exists c, lives_in w t c /\ missing_metric w t c.

End SpecMissing.
