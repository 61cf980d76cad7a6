(** Specification vocabulary for the metrics of Defaults.py.  Definitions only. *)
From Verif Require Export SpecConst.
Local Open Scope nat_scope.

Section SpecDefault.
Context {A : AlgOps}.

(** The square matrix with this diagonal. *)
Definition diagonal (l : list K) (i j : nat) : K := if i =? j then nth i l k0 else k0.

(** A component that depends on the coordinate number [q] only, with the derivative [d]. *)
Definition depends_on (xs : list string) (q : nat) (e d : K) : Prop :=
  forall p, p < length xs -> keq (kdiff (nth p xs ""%string) e) (if p =? q then d else k0).
Definition constant_in (xs : list string) (e : K) : Prop :=
  forall p, p < length xs -> keq (kdiff (nth p xs ""%string) e) k0.

(** The functions of spherical coordinates (t, r, theta, phi): r with 1/r = ri, sin(theta) = s
    with 1/s = si, and cos(theta) = c. *)
Definition spherical_functions (xs : list string) (r ri s si c : K) : Prop :=
  length xs = 4 /\
  keq (kmul r ri) k1 /\ keq (kmul s si) k1 /\ keq (kadd (kmul s s) (kmul c c)) k1 /\
  depends_on xs 1 r k1 /\ depends_on xs 2 s c /\ depends_on xs 2 c (kopp s).

(** diag(-f, 1/f, r^2, r^2 sin(theta)^2) with f = 1 - 2 M/r and 1/f = fi. *)
Definition horizon_function (M ri : K) : K := ksub k1 (kmul (kadd k1 k1) (kmul M ri)).
Definition schwarzschild (M r ri s fi : K) : nat -> nat -> K :=
  diagonal [kopp (horizon_function M ri); fi; kmul r r; kmul (kmul r r) (kmul s s)].

(** diag(-1, a^2 wi, a^2 r^2, a^2 r^2 sin(theta)^2) with wi = 1/(1 - k r^2). *)
Definition curvature_function (k r : K) : K := ksub k1 (kmul k (kmul r r)).
Definition flrw (a r s wi : K) : nat -> nat -> K :=
  diagonal [kopp k1; kmul (kmul a a) wi; kmul (kmul a a) (kmul r r); kmul (kmul (kmul a a) (kmul r r)) (kmul s s)].

(** diag(-1, 1, 1, 1) *)
Definition minkowski : nat -> nat -> K := diagonal [kopp k1; k1; k1; k1].

(** R^i_jlm = q_ij (delta^i_l g_jm - delta^i_m g_jl): the plane of the directions i and j has the
    curvature q_ij. *)
Definition planes (g q : nat -> nat -> K) (i j l m : nat) : K :=
  kmul (q i j) (ksub (kmul (kdelta i l) (g j m)) (kmul (kdelta i m) (g j l))).

(** The curvatures of the planes of a Schwarzschild space-time are 2 M/r^3 for (t, r) and
    (theta, phi) and -M/r^3 for the other ones; here [u] is M/r^3. *)
Definition schwarzschild_planes (u : K) (i j : nat) : K :=
  match i, j with
  | 0, 1 | 1, 0 | 2, 3 | 3, 2 => kmul (kadd k1 k1) u
  | 0, 2 | 2, 0 | 0, 3 | 3, 0 | 1, 2 | 2, 1 | 1, 3 | 3, 1 => kopp u
  | _, _ => k0
  end.
(** Those of an FLRW space-time are a''/a = [u] for the planes with t, and (a'^2 + k)/a^2 = [v]
    for the other ones. *)
Definition flrw_planes (u v : K) (i j : nat) : K :=
  if i =? j then k0 else match i, j with 0, _ | _, 0 => u | _, _ => v end.

(** The Christoffel symbols G^i_jk of the two metrics; [d] is a'. *)
Definition schwarzschild_gamma (M r ri s si c fi : K) (i j k : nat) : K :=
  match i, j, k with
  | 0, 0, 1 | 0, 1, 0 => kmul (kmul M (kmul ri ri)) fi
  | 1, 0, 0 => kmul (kmul M (kmul ri ri)) (horizon_function M ri)
  | 1, 1, 1 => kopp (kmul (kmul M (kmul ri ri)) fi)
  | 1, 2, 2 => kopp (kmul r (horizon_function M ri))
  | 1, 3, 3 => kopp (kmul (kmul r (horizon_function M ri)) (kmul s s))
  | 2, 1, 2 | 2, 2, 1 | 3, 1, 3 | 3, 3, 1 => ri
  | 2, 3, 3 => kopp (kmul s c)
  | 3, 2, 3 | 3, 3, 2 => kmul c si
  | _, _, _ => k0
  end.
Definition flrw_gamma (a ai d k r ri s si c wi : K) (i j l : nat) : K :=
  match i, j, l with
  | 0, 1, 1 => kmul (kmul a d) wi
  | 0, 2, 2 => kmul (kmul a d) (kmul r r)
  | 0, 3, 3 => kmul (kmul (kmul a d) (kmul r r)) (kmul s s)
  | 1, 0, 1 | 1, 1, 0 | 2, 0, 2 | 2, 2, 0 | 3, 0, 3 | 3, 3, 0 => kmul d ai
  | 1, 1, 1 => kmul (kmul k r) wi
  | 1, 2, 2 => kopp (kmul r (curvature_function k r))
  | 1, 3, 3 => kopp (kmul (kmul r (curvature_function k r)) (kmul s s))
  | 2, 1, 2 | 2, 2, 1 | 3, 1, 3 | 3, 3, 1 => ri
  | 2, 3, 3 => kopp (kmul s c)
  | 3, 2, 3 | 3, 3, 2 => kmul c si
  | _, _, _ => k0
  end.

End SpecDefault.
