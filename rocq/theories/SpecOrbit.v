(** Specification vocabulary for the geodesics of the metrics of Defaults.py.  Definitions only. *)
From Verif Require Export SpecDefault SpecGeod.
Local Open Scope K_scope.
Local Open Scope nat_scope.

Section SpecOrbit.
Context {A : AlgOps}.
Definition ktwo : K := kadd k1 k1.
Definition ksquare (e : K) : K := kmul e e.

(** t'' + 2 (M/r^2)/f t' r'
    r'' + M f/r^2 t'^2 - (M/r^2)/f r'^2 - r f theta'^2 - r f sin^2 phi'^2
    theta'' + 2/r r' theta' - sin cos phi'^2
    phi'' + 2/r r' phi' + 2 cos/sin theta' phi'
    with f = 1 - 2 M/r; the velocities are v 0, ..., v 3 and the accelerations a 0, ..., a 3. *)
Definition schwarzschild_orbit (M r ri s si c fi : K) (v a : nat -> K) (i : nat) : K :=
  let f := horizon_function M ri in
  let u := kmul M (ksquare ri) in
  match i with
  | 0 => kadd (a 0) (kmul (kmul ktwo (kmul u fi)) (kmul (v 0) (v 1)))
  | 1 => ksub (ksub (ksub (kadd (a 1) (kmul (kmul u f) (ksquare (v 0)))) (kmul (kmul u fi) (ksquare (v 1))))
           (kmul (kmul r f) (ksquare (v 2)))) (kmul (kmul (kmul r f) (ksquare s)) (ksquare (v 3)))
  | 2 => ksub (kadd (a 2) (kmul (kmul ktwo ri) (kmul (v 1) (v 2)))) (kmul (kmul s c) (ksquare (v 3)))
  | _ => kadd (kadd (a 3) (kmul (kmul ktwo ri) (kmul (v 1) (v 3)))) (kmul (kmul ktwo (kmul c si)) (kmul (v 2) (v 3)))
  end.

(** t'' + a a' (r'^2/(1 - k r^2) + r^2 theta'^2 + r^2 sin^2 phi'^2)
    r'' + 2 a'/a t' r' + k r/(1 - k r^2) r'^2 - r (1 - k r^2) (theta'^2 + sin^2 phi'^2)
    theta'' + 2 a'/a t' theta' + 2/r r' theta' - sin cos phi'^2
    phi'' + 2 a'/a t' phi' + 2/r r' phi' + 2 cos/sin theta' phi'
    with the scale factor [a], its inverse [ai] and its derivative [d]; the accelerations are
    b 0, ..., b 3. *)
Definition flrw_orbit (a ai d k r ri s si c wi : K) (v b : nat -> K) (i : nat) : K :=
  let h := kmul ktwo (kmul d ai) in
  match i with
  | 0 => kadd (b 0) (kmul (kmul a d) (kadd (kadd (kmul wi (ksquare (v 1))) (kmul (ksquare r) (ksquare (v 2))))
           (kmul (kmul (ksquare r) (ksquare s)) (ksquare (v 3)))))
  | 1 => ksub (kadd (kadd (b 1) (kmul h (kmul (v 0) (v 1)))) (kmul (kmul (kmul k r) wi) (ksquare (v 1))))
           (kmul (kmul r (curvature_function k r)) (kadd (ksquare (v 2)) (kmul (ksquare s) (ksquare (v 3)))))
  | 2 => ksub (kadd (kadd (b 2) (kmul h (kmul (v 0) (v 2)))) (kmul (kmul ktwo ri) (kmul (v 1) (v 2))))
           (kmul (kmul s c) (ksquare (v 3)))
  | _ => kadd (kadd (kadd (b 3) (kmul h (kmul (v 0) (v 3)))) (kmul (kmul ktwo ri) (kmul (v 1) (v 3))))
           (kmul (kmul ktwo (kmul c si)) (kmul (v 2) (v 3)))
  end.

(** The equations with t as the parameter: t' = 1, t'' = 0, and the multiple v^i of the first
    equation is subtracted. *)
Definition by_time (orbit : (nat -> K) -> (nat -> K) -> nat -> K) (xs : list string) (i : nat) : K :=
  ksub (orbit (tvel xs) (tacc xs) i) (kmul (tvel xs i) (orbit (tvel xs) (tacc xs) 0)).
End SpecOrbit.
