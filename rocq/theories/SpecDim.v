(** Specification vocabulary for curvature that vanishes.  Definitions only. *)
From Verif Require Export SpecChange.

Section Dim.
Context {A : AlgOps}.

(** In the coordinates [c] no component of the metric depends on a coordinate. *)
Definition constant_metric (G : geometry) (c : oid) : Prop :=
  forall k i j, k < g_n G -> i < g_n G -> j < g_n G -> keq (kdiff (cx (g_syms G c) k) (g_G G c i j)) k0.

(** The coordinates at the end of a chain of transformation rules that begins in [c]. *)
Inductive linked (G : geometry) (c : oid) : oid -> Prop :=
| linked_start : linked G c c
| linked_step d d' R : linked G c d -> dget Nat.eqb d' (g_rules G d) = Some R -> linked G c d'.

(** All components are zero. *)
Definition vanishes (n r : nat) (f : list nat -> K) : Prop :=
  forall idx, in_range n r idx -> keq (f idx) k0.

(** The call [p] computes a new tensor, and whatever requests, changes of defaults, renamings
    and simplifications follow, the components that are obtained from the new tensor in the
    coordinates [d], in any configuration, are zero. *)
Definition gives_zero (G : geometry) (p : M oid) (m : oid) (r : nat) (d : oid) (w : world) : Prop :=
  forall t w' ops i a w'', p w = (Ok t, w') -> ~ In t (insts w) -> Forall (history_op m) ops ->
    get_components t (Some d) (Some i) (after ops w') = (Ok a, w'') ->
    holds (g_n G) r a (fun _ => k0).

End Dim.
