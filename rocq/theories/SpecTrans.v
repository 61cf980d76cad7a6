(** Specification vocabulary for changes of coordinate transformations.  Definitions only. *)
From Verif Require Export SpecWorld.
Local Open Scope nat_scope.

Section SpecTrans.
Context {A : AlgOps}.

(** The equations of a list of rules, in their order; None stands for no rule. *)
Fixpoint equations (l : list rarg) : list rule :=
  match l with
  | [] => []
  | REq r :: l' => r :: equations l'
  | _ :: l' => equations l'
  end.

(** [w'] is [w] except that the coordinates [s] have the rules [f k old] to the coordinates [k] to
    which they had the rules [old] (None: no transformation). *)
Definition changes_transformations (w w' : world) (s : oid)
  (f : oid -> option (list rule) -> option (list rule)) : Prop :=
  exists o o', obj_of w s = Some o /\ obj_of w' s = Some o' /\
    (forall k, dget Nat.eqb k (o_trans o') = f k (dget Nat.eqb k (o_trans o))) /\
    (NoDup (map fst (o_trans o)) -> NoDup (map fst (o_trans o'))) /\
    (o_name o' = o_name o /\ o_symbol o' = o_symbol o /\ o_indices o' = o_indices o /\ o_rank o' = o_rank o /\
     o_coords o' = o_coords o /\ o_metric o' = o_metric o /\ o_comps o' = o_comps o /\ o_syms o' = o_syms o /\ o_jacs o' = o_jacs o) /\
    (forall j, j <> s -> obj_of w' j = obj_of w j) /\ insts w' = insts w /\ (forall j, cls_of w' j = cls_of w j).
End SpecTrans.
