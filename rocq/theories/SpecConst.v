(** Specification vocabulary for spaces of constant curvature.  Definitions only. *)
From Verif Require Export SpecDim.
Local Open Scope nat_scope.

Section SpecConst.
Context {A : AlgOps}.

(** k (g_il g_jm - g_im g_jl) *)
Definition gg (g : nat -> nat -> K) (k : K) (i j l m : nat) : K :=
  kmul k (ksub (kmul (g i l) (g j m)) (kmul (g i m) (g j l))).

(** R_ijlm = k (g_il g_jm - g_im g_jl), where R_ijlm is the Riemann tensor of the metric with its
    first index lowered. *)
Definition curvature_like (n : nat) (xs : list string) (g gi : nat -> nat -> K) (k : K) : Prop :=
  forall i j l m, i < n -> j < n -> l < n -> m < n ->
    keq (lowered n g (Rie n xs g gi) i j l m) (gg g k i j l m).

(** The tensor with the components [f] is [k] times the metric. *)
Definition multiple (n : nat) (g : nat -> nat -> K) (k : K) (f : list nat -> K) : Prop :=
  forall idx, in_range n 2 idx -> keq (f idx) (kmul k (g (nth 0 idx 0) (nth 1 idx 0))).

End SpecConst.
