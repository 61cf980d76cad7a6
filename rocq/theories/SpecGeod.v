(** Specification vocabulary for Lagrangians and geodesics.  Definitions only. *)
From Verif Require Export GeodM SpecCurv.

Section Formulas.
Context {A : AlgOps}.

(** The symbols for the first and second derivative of a coordinate by the curve parameter. *)
Definition velocity (x : string) : K := ksym (x ++ "dot")%string.
Definition acceleration (x : string) : K := ksym (x ++ "ddot")%string.

(** [e] is [e'] times an invertible factor, so the equations e = 0 and e' = 0 are equivalent. *)
Definition unit_multiple (e e' : K) : Prop :=
  exists u v, keq (kmul u v) k1 /\ keq e (kmul u e').

(** g_ij v^i v^j *)
Definition lagrangian_of (n : nat) (g : nat -> nat -> K) (v : nat -> K) : K :=
  nsum n (fun i => nsum n (fun j => kmul (g i j) (kmul (v i) (v j)))).
(** a^s + G^s_ij v^i v^j *)
Definition geodesic_of (n : nat) (G : nat -> nat -> nat -> K) (v a : nat -> K) (s : nat) : K :=
  kadd (a s) (nsum n (fun i => nsum n (fun j => kmul (G s i j) (kmul (v i) (v j))))).
(** a^s + (G^s_ij - G^0_ij v^s) v^i v^j *)
Definition time_geodesic_of (n : nat) (G : nat -> nat -> nat -> K) (v a : nat -> K) (s : nat) : K :=
  kadd (a s) (nsum n (fun i => nsum n (fun j =>
    kmul (ksub (G s i j) (kmul (G 0%nat i j) (v s))) (kmul (v i) (v j))))).

(** The coordinates are different symbols, none of which is a velocity or the curve parameter p,
    and the metric contains neither velocities nor the curve parameter. *)
Definition static_along (p : string) (n : nat) (xs : list string) (g : nat -> nat -> K) : Prop :=
  NoDup xs /\ ~ In p xs /\ (forall x y, In x xs -> In y xs -> x <> (y ++ "dot")%string) /\
  forall i j, i < n -> j < n -> keq (kdiff p (g i j)) k0 /\
    forall x, In x xs -> keq (kdiff (x ++ "dot")%string (g i j)) k0.
(** The same for the default parameter. *)
Definition static_metric (n : nat) (xs : list string) (g : nat -> nat -> K) : Prop := static_along "lambda" n xs g.

End Formulas.

Section Curves.
Context {A : AlgOps}.
Variables (n : nat) (xs : list string) (g gi : nat -> nat -> K).

Definition cvel (k : nat) : K := velocity (cx xs k).
Definition cacc (k : nat) : K := acceleration (cx xs k).
(** With the first coordinate as the parameter. *)
Definition tvel (k : nat) : K := if k =? 0 then k1 else cvel k.
Definition tacc (k : nat) : K := if k =? 0 then k0 else cacc k.

Definition Lag : K := lagrangian_of n g cvel.
Definition Geo : nat -> K := geodesic_of n (Gam n xs g gi) cvel cacc.
Definition Geo_lowered (k : nat) : K := nsum n (fun s => kmul (g k s) (Geo s)).
Definition Geo_time : nat -> K := time_geodesic_of n (Gam n xs g gi) tvel tacc.

(** The components [h] of a result: the Lagrangian, or geodesic equations equivalent to e. *)
Definition is_lagrangian (h : list nat -> K) : Prop := keq (h []) Lag.
Definition is_geodesic (e : nat -> K) (h : list nat -> K) : Prop :=
  forall k, k < n -> unit_multiple (h [k]) (e k).

(** Every registered object of class [k] with this name is a tensor with components as
    described by [P]; this holds in particular if there is none. *)
Definition known_curve (w : world) (m c : oid) (k : cls) (name : string) (i : list Z)
  (P : (list nat -> K) -> Prop) : Prop :=
  forall j, In j (insts w) -> cls_of w j = Some k -> named w name j ->
  exists h, P h /\ tensor_value w n m c j i h.
Definition known_curves (w : world) (m c : oid) (name : string) : Prop :=
  known_curve w m c CLagrangian (name ++ " Lagrangian") [] is_lagrangian /\
  known_curve w m c CGeodesic (name ++ " Geodesic From Lagrangian") [1]%Z (is_geodesic Geo_lowered) /\
  known_curve w m c CGeodesic (name ++ " Geodesic From Christoffel") [1]%Z (is_geodesic Geo) /\
  known_curve w m c CGeodesic (name ++ " Geodesic With Time Parameter") [1]%Z (is_geodesic Geo_time).

(** The call [p] succeeds with a registered tensor of class [k] with components as described
    by [P]; it registers nothing but temporary tensors and tensors with the [names], and the
    session stays one to which the same applies. *)
Definition gives_curve (p : M oid) (m c : oid) (name : string) (names : list string) (k : cls) (i : list Z)
  (P : (list nat -> K) -> Prop) (w : world) : Prop :=
  exists t w' h, p w = (Ok t, w') /\ In t (insts w') /\ cls_of w' t = Some k /\
    tensor_value w' n m c t i h /\ P h /\
    only_adds ("TEMP"%string :: names) w w' /\
    metric_session w' n m c name xs g gi /\ known_results n xs g gi w' m c name /\
    known_curves w' m c name.

End Curves.
