(** Specification vocabulary for Christoffel symbols and Lagrangians in other coordinates.
    Definitions only. *)
From Verif Require Export SpecChange SpecGeod SpecMissing.
Local Open Scope nat_scope.

Section SpecRequest.
Context {A : AlgOps}.

(** The object [t] was given the components [a] with the configuration [i] in the coordinates [c],
    which are its default coordinates. *)
Definition given_in (w : world) (t c : oid) (i : list Z) (a : arr) : Prop :=
  exists o d rest, obj_of w t = Some o /\ o_coords o = Some c /\ o_rank o = length i /\ length (o_indices o) = length i /\
    o_comps o = (c, d) :: rest /\ dget cfg_eqb i d = Some a.

(** Symbols of velocities: no old coordinate or velocity is a velocity or a new coordinate or
    the curve parameter, and no rule contains one. *)
Definition curve_change (p : string) (xs ys : list string) (R : list rule) : Prop :=
  let vel x := (x ++ "dot")%string in
  (forall x x', In x xs -> In x' xs -> x <> vel x') /\
  (forall x, In x xs -> ~ In x ys /\ ~ In x (map vel ys) /\ ~ In (vel x) ys /\ ~ In (vel x) (map vel ys)) /\
  (forall x, In x xs -> x <> p /\ vel x <> p) /\
  (forall r x, In r R -> In x xs -> free_of x (snd r) /\ free_of (vel x) (snd r)) /\
  (In p ys \/ (forall r, In r R -> keq (kdiff p (snd r)) k0)).

(** The Lagrangian of the metric [g] in the coordinates [xs] *)
Definition metric_lagrangian (n : nat) (xs : list string) (g : nat -> nat -> K) : K :=
  lagrangian_of n g (fun k => velocity (nth k xs ""%string)).
End SpecRequest.
