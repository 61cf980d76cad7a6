(** Specification vocabulary for metrics that differ by a factor.  Definitions only. *)
From Verif Require Export SpecCurv.
Local Open Scope nat_scope.

Section SpecScale.
Context {A : AlgOps}.

(** g' = l g *)
Definition times_metric (n : nat) (l : K) (g g' : nat -> nat -> K) : Prop :=
  forall i j, i < n -> j < n -> keq (g' i j) (kmul l (g i j)).

(** [l] does not depend on the coordinates. *)
Definition constant (xs : list string) (l : K) : Prop := forall s, In s xs -> keq (kdiff s l) k0.

(** [p] in the session [w] and [p'] in the session [w'] succeed with tensors of the configuration
    [i], with the metrics [m] and [m'] in the coordinates [c] and [c']; the components of the
    second are [k] times those of the first. *)
Definition in_ratio (n : nat) (i : list Z) (k : K) (p : M oid) (m c : oid) (w : world) (p' : M oid) (m' c' : oid) (w' : world) : Prop :=
  exists t w1 t' w1' f, p w = (Ok t, w1) /\ tensor_value w1 n m c t i f /\
    p' w' = (Ok t', w1') /\ tensor_value w1' n m' c' t' i (fun idx => kmul k (f idx)).

End SpecScale.
