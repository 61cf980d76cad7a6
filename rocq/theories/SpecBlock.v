(** Specification vocabulary for products of spaces.  Definitions only. *)
From Verif Require Export SpecCurv.
Local Open Scope nat_scope.

Section SpecBlock.
Context {A : AlgOps}.

(** The indices below [n1] belong to the first space, the others to the second: components with
    all indices in one space are those of that space, the others are zero. *)
Definition joined (n1 : nat) (f1 f2 : list nat -> K) (idx : list nat) : K :=
  if forallb (fun i => i <? n1) idx then f1 idx
  else if forallb (fun i => n1 <=? i) idx then f2 (map (fun i => i - n1) idx)
  else k0.

(** The metric [g] of the product of two spaces with the metrics [g1] and [g2], which do not
    depend on the coordinates of the other space. *)
Definition product_metric (n1 n2 : nat) (xs1 xs2 : list string) (g1 g2 g : nat -> nat -> K) : Prop :=
  (forall i j, i < n1 + n2 -> j < n1 + n2 -> keq (g i j) (joined n1 (at2 g1) (at2 g2) [i; j])) /\
  (forall i j s, i < n1 -> j < n1 -> In s xs2 -> keq (kdiff s (g1 i j)) k0) /\
  (forall i j s, i < n2 -> j < n2 -> In s xs1 -> keq (kdiff s (g2 i j)) k0).

(** [p1] in [w1], [p2] in [w2] and [p] in [w] succeed with tensors of the configuration [i]; the
    components of the third are those of the first two. *)
Definition joins (n1 n2 : nat) (i : list Z) (p1 : M oid) (m1 c1 : oid) (w1 : world)
  (p2 : M oid) (m2 c2 : oid) (w2 : world) (p : M oid) (m c : oid) (w : world) : Prop :=
  exists t1 v1 t2 v2 t v f1 f2,
    p1 w1 = (Ok t1, v1) /\ tensor_value v1 n1 m1 c1 t1 i f1 /\
    p2 w2 = (Ok t2, v2) /\ tensor_value v2 n2 m2 c2 t2 i f2 /\
    p w = (Ok t, v) /\ tensor_value v (n1 + n2) m c t i (joined n1 f1 f2).

End SpecBlock.
