(** Words for the rank of objects. *)
From Verif Require Import Alg Arr Spec TensorM WorldM SpecWorld.
Local Open Scope nat_scope.

Section SpecRank.
Context {A : AlgOps}.

(** The state [w'] comes after [w] in a session. *)
Inductive later (w : world) : world -> Prop :=
| later_now : later w w
| later_call : forall w' o, later w w' -> live_args w' o -> later w (snd (run_op o w')).

(** rank() gives the number of default indices, which are 1 or -1. *)
Definition well_ranked (o : obj) : Prop := o_rank o = length (o_indices o) /\ valid_cfg (o_indices o).
End SpecRank.
