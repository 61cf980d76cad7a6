(** Specification vocabulary for volume elements and divergences.  Definitions only. *)
From Verif Require Export SpecDeriv SpecLine.
Local Open Scope nat_scope.

Section SpecVolume.
Context {A : AlgOps}.

(** The first index and the index j exchanged. *)
Definition exchanged (j : nat) (idx : list nat) : list nat :=
  replaced 0 (nth j idx 0) (replaced j (nth 0 idx 0) idx).

(** The components change their sign when the first index is exchanged with any other. *)
Definition antisymmetric_first (n r : nat) (T : list nat -> K) : Prop :=
  forall j idx, 1 <= j -> j < r -> in_range n r idx -> keq (T (exchanged j idx)) (kopp (T idx)).

(** 2 v times the divergence with the weight: the sum of 2 v d_a T^a... + T^a... d_a v.  With
    v = u^2 this is 2 u times the sum of d_a (u T^a...). *)
Definition weighted_divergence (n : nat) (x : nat -> string) (v : K) (T : list nat -> K) (idx : list nat) : K :=
  nsum n (fun a => kadd (kmul (kmul (knat 2) v) (kdiff (x a) (T (a :: idx)))) (kmul (T (a :: idx)) (kdiff (x a) v))).

(** The components A^a of a covector. *)
Definition raised_vector (n : nat) (gi : nat -> nat -> K) (T : list nat -> K) (idx : list nat) : K :=
  nsum n (fun b => kmul (gi (nth 0 idx 0) b) (T [b])).
End SpecVolume.
