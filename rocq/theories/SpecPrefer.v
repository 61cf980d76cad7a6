(** Specification vocabulary for changes of the defaults of a tensor.  Definitions only. *)
From Verif Require Export SpecWorld.
Local Open Scope nat_scope.

Section SpecPrefer.
Context {A : AlgOps}.

(** [w'] differs from [w] in the default coordinates and the default indices of [t] only, which are
    [coords] and [indices]. *)
Definition other_defaults (w w' : world) (t : oid) (coords : oid) (indices : list Z) : Prop :=
  insts w' = insts w /\ (forall i, cls_of w' i = cls_of w i) /\ (forall i, i <> t -> obj_of w' i = obj_of w i) /\
  exists o o', obj_of w t = Some o /\ obj_of w' t = Some o' /\ o_coords o' = Some coords /\ o_indices o' = indices /\
    o_name o' = o_name o /\ o_symbol o' = o_symbol o /\ o_rank o' = o_rank o /\ o_metric o' = o_metric o /\
    o_comps o' = o_comps o /\ o_syms o' = o_syms o /\ o_trans o' = o_trans o /\ o_jacs o' = o_jacs o.

(** The tensor or metric [t] has the default coordinates [c], for which it has components. *)
Definition at_home (w : world) (t : oid) (o : obj) (c : oid) : Prop :=
  obj_of w t = Some o /\ cls_of w t <> Some CCoordinates /\ o_coords o = Some c /\ dget Nat.eqb c (o_comps o) <> None.

(** The coordinates [c] have rules for the coordinates [c']. *)
Definition has_rules (w : world) (c c' : oid) : Prop :=
  exists o, obj_of w c = Some o /\ dget Nat.eqb c' (o_trans o) <> None.

End SpecPrefer.
