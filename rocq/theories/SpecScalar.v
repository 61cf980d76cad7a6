(** Vocabulary of the theorems about scalars, negation, division and simplification.
    Definitions only. *)
From Verif Require Import Alg Arr Spec WorldM SpecWorld CalcM SpecCalc.

Section SpecScalar.
Context {A : AlgOps}.

(** The scalar [o] was made in other coordinates than [c]: the coordinates it was made in are
    the first ones it has components for. *)
Definition made_elsewhere (o : obj) (c : oid) : Prop :=
  o_rank o = 0 /\ forall d l, o_comps o <> (c, d) :: l.

(** Two dictionaries of components with the same keys in the same order and with equal values. *)
Definition same_array (a b : arr) : Prop := shape b = shape a /\ Forall2 keq (data a) (data b).
Definition same_values (d d' : list (oid * list (list Z * arr))) : Prop :=
  Forall2 (fun e e' => fst e' = fst e /\
    Forall2 (fun ia ib => fst ib = fst ia /\ same_array (snd ia) (snd ib)) (snd e) (snd e')) d d'.

(** [w'] is [w] with the object [t] replaced by [o']. *)
Definition replaced_object (w w' : world) (t : oid) (o' : obj) : Prop :=
  insts w' = insts w /\ (forall j, cls_of w' j = cls_of w j) /\ obj_of w' t = Some o' /\
  forall j, j <> t -> obj_of w' j = obj_of w j.

End SpecScalar.

Section SpecProduct.
Context {A : AlgOps}.

(** A scalar: wherever it has components, it has those of the configuration without indices; and
    it has components in its default coordinates. *)
Definition scalar_object (o : obj) : Prop :=
  o_indices o = [] /\ o_rank o = 0 /\
  (forall c d, dget Nat.eqb c (o_comps o) = Some d -> dmem cfg_eqb [] d = true) /\
  (forall c, o_coords o = Some c -> dmem Nat.eqb c (o_comps o) = true).

End SpecProduct.
