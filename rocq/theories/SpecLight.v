(** Specification vocabulary for the geodesics of metrics that differ by a factor.  Definitions
    only. *)
From Verif Require Export SpecScale SpecGeod.
Local Open Scope nat_scope.

Section SpecLight.
Context {A : AlgOps}.

(** g^sl d_l a *)
Definition gradient (n : nat) (xs : list string) (gi : nat -> nat -> K) (a : K) (s : nat) : K :=
  nsum n (fun l => kmul (gi s l) (kdiff (nth l xs ""%string) a)).
(** v^i d_i a, the derivative of a along a curve *)
Definition change_along (n : nat) (xs : list string) (a : K) : K :=
  nsum n (fun i => kmul (kdiff (nth i xs ""%string) a) (velocity (nth i xs ""%string))).
(** The second covariant derivatives of a scalar a, their trace, and g^lk (d_l a) (d_k a). *)
Definition hessian (n : nat) (xs : list string) (g gi : nat -> nat -> K) (a : K) (i j : nat) : K :=
  ksub (kdiff (nth i xs ""%string) (kdiff (nth j xs ""%string) a))
       (nsum n (fun l => kmul (Gam n xs g gi l i j) (kdiff (nth l xs ""%string) a))).
Definition wave_operator (n : nat) (xs : list string) (g gi : nat -> nat -> K) (a : K) : K := trace_of n gi (hessian n xs g gi a).
Definition gradient_square (n : nat) (xs : list string) (gi : nat -> nat -> K) (a : K) : K :=
  nsum n (fun l => nsum n (fun k => kmul (gi l k) (kmul (kdiff (nth l xs ""%string) a) (kdiff (nth k xs ""%string) a)))).
(** The factors r_0, ..., r_(n-1) are invertible. *)
Definition invertible (n : nat) (r : nat -> K) : Prop := exists q, forall s, s < n -> keq (kmul (r s) (q s)) k1.

(** [p] gives a tensor with the configuration [i] and the components [h] in the session [w]. *)
Definition computes (p : M oid) (n : nat) (m c : oid) (i : list Z) (w : world) (h : list nat -> K) (w' : world) : Prop :=
  exists t, p w = (Ok t, w') /\ tensor_value w' n m c t i h.
End SpecLight.
