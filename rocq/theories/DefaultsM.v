(** Model of src/PyOGRe/Defaults.py: the coordinate systems and metrics that importing the module
    makes.  Definitions only. *)
From Verif Require Export WrapM.

Section DefaultsM.
Context {A : AlgOps}.

(** The functions of SymPy that the module uses: sin, cos, sqrt, acos, atan, 1/x, and the value
    of Function("a") at t (Defaults.py 6).  External; nothing is assumed of them here. *)
Record functions := mkFunctions {
  f_sin : K -> K; f_cos : K -> K; f_sqrt : K -> K; f_acos : K -> K; f_atan : K -> K;
  f_inv : K -> K; f_a : K
}.
Variable F : functions.
Local Notation "x * y" := (kmul x y).
Local Notation "x + y" := (kadd x y).
Local Notation sq x := (kmul x x).

(** Defaults.py 5 *)
Definition s_t := ksym "t". Definition s_x := ksym "x". Definition s_y := ksym "y".
Definition s_z := ksym "z". Definition s_r := ksym "r". Definition s_theta := ksym "theta".
Definition s_phi := ksym "phi". Definition s_M := ksym "M". Definition s_k := ksym "k".

(** Defaults.py 18-26 *)
Definition to_spherical : list rarg :=
  [RNone;
   REq ("x"%string, (s_r * f_sin F s_theta) * f_cos F s_phi);
   REq ("y"%string, (s_r * f_sin F s_theta) * f_sin F s_phi);
   REq ("z"%string, s_r * f_cos F s_theta)].
(** Defaults.py 28-36 *)
Definition radius : K := f_sqrt F ((sq s_x + sq s_y) + sq s_z).
Definition to_cartesian : list rarg :=
  [RNone;
   REq ("r"%string, radius);
   REq ("theta"%string, f_acos F (s_z * f_inv F radius));
   REq ("phi"%string, f_atan F (s_y * f_inv F s_x))].

(** The entries of a 4 x 4 matrix with this diagonal, row by row *)
Definition diag4 (a b c d : K) : arr :=
  mkArr [4; 4] [a; k0; k0; k0; k0; b; k0; k0; k0; k0; c; k0; k0; k0; k0; d].
(** Defaults.py 40 *)
Definition minkowski_matrix : arr := diag4 (kopp k1) k1 k1 k1.
(** Defaults.py 45-52 *)
Definition schwarzschild_array : arr :=
  let f := ksub k1 ((k1 + k1) * (s_M * f_inv F s_r)) in
  diag4 (kopp f) (f_inv F f) (sq s_r) (sq s_r * sq (f_sin F s_theta)).
(** Defaults.py 57-64 *)
Definition flrw_array : arr :=
  let a2 := sq (f_a F) in
  diag4 (kopp k1) (a2 * f_inv F (ksub k1 (s_k * sq s_r))) (a2 * sq s_r) ((a2 * sq s_r) * sq (f_sin F s_theta)).

Record defaults := mkDefaults { d_cartesian : oid; d_spherical : oid; d_minkowski : oid; d_schwarzschild : oid; d_flrw : oid }.

(** Defaults.py 8-65, from top to bottom *)
Definition import_defaults : M defaults :=
  let! cartesian := py_new_coordinates (VStr "4D Cartesian") (VSyms [4] ["t"; "x"; "y"; "z"]%string) None None None in
  let! spherical := py_new_coordinates (VStr "4D Spherical") (VSyms [4] ["t"; "r"; "theta"; "phi"]%string) None None None in
  add_coord_transformation cartesian (VObj spherical) (Some to_spherical) ;;
  add_coord_transformation spherical (VObj cartesian) (Some to_cartesian) ;;
  let! minkowski := coords_new_metric cartesian (VStr "4D Minkowski") (VMat minkowski_matrix) None None in
  let! schwarzschild := coords_new_metric spherical (VStr "Schwarzschild") (VArr schwarzschild_array) None None in
  let! flrw := coords_new_metric spherical (VStr "FLRW") (VArr flrw_array) None None in
  mret (mkDefaults cartesian spherical minkowski schwarzschild flrw).

End DefaultsM.
