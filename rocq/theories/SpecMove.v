(** Specification vocabulary for metrics that change their default coordinates.  Definitions only. *)
From Verif Require Export SpecStart SpecDefault.
Local Open Scope nat_scope.

Section SpecMove.
Context {A : AlgOps}.

(** Substituting the symbol [s] is a homomorphism. *)
Definition substitutable (s : string) : Prop :=
  (forall q x y, keq x y -> keq (ksub1 s q x) (ksub1 s q y)) /\
  (forall q x y, keq (ksub1 s q (kadd x y)) (kadd (ksub1 s q x) (ksub1 s q y))) /\
  (forall q x y, keq (ksub1 s q (kmul x y)) (kmul (ksub1 s q x) (ksub1 s q y))) /\
  (forall q, keq (ksub1 s q k1) k1).

(** The coordinates [c] have the rules [R] to the coordinates [c'], for which nothing was
    computed yet. *)
Definition new_rules (w : world) (c c' : oid) (R : list rule) : Prop :=
  exists o, obj_of w c = Some o /\ dget Nat.eqb c' (o_trans o) = Some R /\ dget Nat.eqb c' (o_jacs o) = None.

(** The metric [m] has components in the coordinates [c] only. *)
Definition only_in (w : world) (m c : oid) : Prop :=
  exists o, obj_of w m = Some o /\ map fst (o_comps o) = [c].

(** The derivative of the old coordinate number [i] by the new one number [j]; a coordinate without
    a rule is the same in both systems. *)
Definition rule_derivative (xs ys : list string) (R : list rule) (i j : nat) : K :=
  match dget String.eqb (nth i xs ""%string) R with
  | Some e => kdiff (nth j ys ""%string) e
  | None => kdelta i j
  end.

(** The metric [g] in the new coordinates. *)
Definition moved_metric (n : nat) (xs ys : list string) (R : list rule) (g : nat -> nat -> K) (i j : nat) : K :=
  subs_seq R (nsum n (fun k => nsum n (fun l =>
    kmul (kmul (rule_derivative xs ys R k i) (rule_derivative xs ys R l j)) (g k l)))).

(** sin(phi) = sp and cos(phi) = cp in the coordinates (t, r, theta, phi). *)
Definition azimuth_functions (xs : list string) (sp cp : K) : Prop :=
  keq (kadd (kmul sp sp) (kmul cp cp)) k1 /\ depends_on xs 3 sp cp /\ depends_on xs 3 cp (kopp sp).

(** diag(-1, 1, r^2, r^2 sin(theta)^2) *)
Definition flat_spherical (r st : K) : nat -> nat -> K :=
  diagonal [kopp k1; k1; kmul r r; kmul (kmul r r) (kmul st st)].

End SpecMove.
