(** Specification vocabulary for changes of coordinates.  Definitions only. *)
From Coq Require Import Permutation.
From Verif Require Export SpecCurv SpecCov.

Section Change.
Context {A : AlgOps}.

(** The rules [R] express the [n] coordinates [xs] by the coordinates [ys]: there is one rule
    for every old coordinate, no coordinate is both old and new, and no right side contains
    an old coordinate. *)
Definition coordinate_change (n : nat) (xs ys : list string) (R : list rule) : Prop :=
  1 <= n /\ length xs = n /\ length ys = n /\ NoDup (map fst R) /\ Permutation (map fst R) xs /\
  (forall x, In x xs -> ~ In x ys) /\
  (forall r x, In r R -> In x xs -> free_of x (snd r)).

(** No component contains one of the symbols [ys]. *)
Definition without_symbols (n : nat) (ys : list string) (r : nat) (f : list nat -> K) : Prop :=
  forall y idx, In y ys -> in_range n r idx -> keq (kdiff y (f idx)) k0.

(** The metric [g] with inverse [gi] is symmetric, does not contain the new coordinates, and
    becomes [g'] with inverse [gi'] in the new coordinates. *)
Definition metric_change (n : nat) (ys : list string) (R : list rule) (J Ji : arr)
  (g gi g' gi' : nat -> nat -> K) : Prop :=
  symmetric_fun n g /\ inverse_fun n g gi /\ inverse_fun n g' gi' /\
  without_symbols n ys 2 (at2 g) /\
  exists a a', holds n 2 a (at2 g) /\ transform J Ji R 2 [-1; -1]%Z a = Ok a' /\ holds n 2 a' (at2 g').

(** Components [f] with the configuration [i] are transformed to the components [f']. *)
Definition moved (n : nat) (R : list rule) (J Ji : arr) (i : list Z) (f f' : list nat -> K) : Prop :=
  forall a, holds n (length i) a f ->
    exists a', transform J Ji R (length i) i a = Ok a' /\ holds n (length i) a' f'.

(** Covariant derivative with the new index in front. *)
Definition derived (n : nat) (xs : list string) (g gi : nat -> nat -> K) (i : list Z) (f : list nat -> K)
  (idx : list nat) : K :=
  covariant_of n (cx xs) (Gam n xs g gi) i f (hd 0 idx) (tl idx).

(** Every rule set of the geometry is a change of coordinates whose Jacobian can be computed,
    and the metric does not contain the coordinates of the other system. *)
Definition regular (G : geometry) : Prop :=
  forall c c' R, g_sys G c -> dget Nat.eqb c' (g_rules G c) = Some R ->
    coordinate_change (g_n G) (g_syms G c) (g_syms G c') R /\
    without_symbols (g_n G) (g_syms G c') 2 (at2 (g_G G c)) /\
    exists j, calculate_jacobian (g_syms G c) (g_syms G c') R = Ok j.

(** The geometry with another tensor, given by its rank and its covariant components. *)
Definition with_tensor (G : geometry) (r : nat) (T : oid -> list nat -> K) : geometry :=
  mkGeo (g_n G) r (g_sys G) (g_syms G) (g_rules G) T (g_G G) (g_Gi G).

(** The covariant components of the curvature tensors of the metric in every coordinate system. *)
Definition geo_riemann (G : geometry) (c : oid) : list nat -> K :=
  at4 (lowered (g_n G) (g_G G c) (Rie (g_n G) (g_syms G c) (g_G G c) (g_Gi G c))).
Definition geo_ricci (G : geometry) (c : oid) : list nat -> K :=
  at2 (Ric (g_n G) (g_syms G c) (g_G G c) (g_Gi G c)).
Definition geo_scalar (G : geometry) (c : oid) : list nat -> K :=
  fun _ => Sca (g_n G) (g_syms G c) (g_G G c) (g_Gi G c).
Definition geo_einstein (G : geometry) (c : oid) : list nat -> K :=
  at2 (Ein (g_n G) (g_syms G c) (g_G G c) (g_Gi G c)).
Definition geo_weyl (G : geometry) (c : oid) : list nat -> K :=
  at4 (Wey (g_n G) (g_syms G c) (g_G G c) (g_Gi G c)).

(** The call [p] computes the tensor with the covariant components [T] anew, and whatever
    requests, changes of defaults, renamings and simplifications follow, the components
    that are obtained from the new tensor in any coordinates and any configuration are those of
    [T] in these coordinates. *)
Definition gives_everywhere (G : geometry) (p : M oid) (m : oid) (r : nat) (T : oid -> list nat -> K)
  (w : world) : Prop :=
  forall t w', p w = (Ok t, w') -> ~ In t (insts w) ->
    represents (with_tensor G r T) t m w' /\
    forall ops c i a w'', Forall (history_op m) ops ->
      get_components t (Some c) (Some i) (after ops w') = (Ok a, w'') ->
      holds (g_n G) r a (with_indices G c i (T c)).

End Change.
