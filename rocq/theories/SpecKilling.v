(** Specification vocabulary for the symmetries of a metric.  Definitions only. *)
From Verif Require Export SpecGeod SpecDeriv.
Local Open Scope nat_scope.

Section SpecKilling.
Context {A : AlgOps}.

(** The components h_q of the vector X^k with the index lowered. *)
Definition lowered_vector (n : nat) (g : nat -> nat -> K) (X : nat -> K) (h : list nat -> K) : Prop :=
  forall q, q < n -> keq (h [q]) (nsum n (fun k => kmul (g q k) (X k))).

(** The Lie derivative of the metric along the vector X. *)
Definition lie_metric (n : nat) (x : nat -> string) (g : nat -> nat -> K) (X : nat -> K) (p q : nat) : K :=
  nsum n (fun k => kadd (kmul (X k) (kdiff (x k) (g p q)))
    (kadd (kmul (g k q) (kdiff (x p) (X k))) (kmul (g p k) (kdiff (x q) (X k))))).
End SpecKilling.

Section SpecKillingCurves.
Context {A : AlgOps}.

(** The components h_q contain neither velocities nor the curve parameter. *)
Definition without_velocities (n : nat) (xs : list string) (h : list nat -> K) : Prop :=
  (forall q, q < n -> keq (kdiff "lambda" (h [q])) k0) /\
  forall k q, k < n -> q < n -> keq (kdiff (nth k xs "" ++ "dot")%string (h [q])) k0.

(** h_q v^q along a curve. *)
Definition along (xs : list string) (n : nat) (h : list nat -> K) : K :=
  nsum n (fun q => kmul (h [q]) (velocity (nth q xs ""%string))).
End SpecKillingCurves.
