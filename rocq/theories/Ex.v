(** Small concrete arrays over polynomial expressions, used in the examples that accompany
    the property theorems and as witnesses.  Definitions only. *)
From Coq Require Import QArith.
From Verif Require Import Alg Arr Inst.
Local Open Scope nat_scope.

Definition pz (z : Z) : pexp := PC (inject_Z z).
Definition pv : string -> pexp := PV.

(** A matrix and a vector of dimension 2 with symbolic entries. *)
Definition ex_mat : @arr PolyOps :=
  @mkArr PolyOps [2; 2] [pv "a"; pv "b"; pv "c"; pv "d"].
Definition ex_vec : @arr PolyOps := @mkArr PolyOps [2] [pv "x"; pv "y"].
Definition ex_rank3 : @arr PolyOps :=
  @mkArr PolyOps [2; 2; 2] [pv "x"; pv "y"; pz 1; pz 2; PMul (pv "x") (pv "y"); pz 3; pz 4; pz 5].

(** Vectors of length 3 that differ in the last entry. *)
Definition ex_long1 : @arr PolyOps := @mkArr PolyOps [3] [pz 1; pz 2; pz 3].
Definition ex_long2 : @arr PolyOps := @mkArr PolyOps [3] [pz 1; pz 2; pz 7].

(** A column, as show(function=...) builds from a rank 1 tensor. *)
Definition ex_column : @arr PolyOps := @mkArr PolyOps [2; 1] [pz 1; pz 2].

(** A metric of determinant 1 in the coordinates x, y; a coordinate change x = u,
    y = v + u^2 with its Jacobian, and the way back. *)
Definition ex_xs : list string := ["x"; "y"]%string.
Definition ex_ys : list string := ["u"; "v"]%string.
Definition ex_g : @arr PolyOps :=
  @mkArr PolyOps [2; 2] [pz 1; pv "x"; pv "x"; PAdd (pz 1) (PMul (pv "x") (pv "x"))].
Definition ex_gi : @arr PolyOps :=
  @mkArr PolyOps [2; 2] [PAdd (pz 1) (PMul (pv "x") (pv "x")); POpp (pv "x"); POpp (pv "x"); pz 1].
Definition ex_rules : list (string * @K PolyOps) :=
  [("y", PAdd (pv "v") (PMul (pv "u") (pv "u"))); ("x", pv "u")]%string.
Definition ex_J : @arr PolyOps := @mkArr PolyOps [2; 2] [pz 1; pz 0; PMul (pz 2) (pv "u"); pz 1].
Definition ex_Ji : @arr PolyOps := @mkArr PolyOps [2; 2] [pz 1; pz 0; PMul (pz (-2)) (pv "u"); pz 1].
Definition ex_back : list (string * @K PolyOps) :=
  [("u", pv "x"); ("v", PSub (pv "y") (PMul (pv "x") (pv "x")))]%string.
Definition ex_J2 : @arr PolyOps := @mkArr PolyOps [2; 2] [pz 1; pz 0; PMul (pz (-2)) (pv "x"); pz 1].
Definition ex_Ji2 : @arr PolyOps := @mkArr PolyOps [2; 2] [pz 1; pz 0; PMul (pz 2) (pv "x"); pz 1].

(** The Jacobian of a change that renames a coordinate and keeps another under its name,
    in another position: r = x + z, and z without a rule. *)
Definition ex_self : list string := ["r"; "z"]%string.
Definition ex_other : list string := ["z"; "x"]%string.
Definition ex_shift : list (string * @K PolyOps) := [("r", PAdd (pv "x") (pv "z"))]%string.

(** Rules that exchange two symbols. *)
Definition ex_swap : list (string * @K PolyOps) := [("x", pv "y"); ("y", pv "x")]%string.
