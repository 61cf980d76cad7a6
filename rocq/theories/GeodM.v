(** Lagrangians and geodesic equations.  /repo/src/PyOGRe/Calc.py 1387-1804.  Definitions only.
    Simplifications: functions of the curve parameter and their derivatives are symbols (see
    TensorM.v); geodesic equations from the Lagrangian are computed with activate=True. *)
From Verif Require Export CurvM.

Section GeodM.
Context {A : AlgOps}.

(** for instance in _instances: if isinstance(instance, k) and instance._name == name: return
    instance. *)
Fixpoint first_instance (k : cls) (name : string) (l : list oid) : M (option oid) :=
  match l with
  | [] => mret None
  | i :: l' =>
    let! b := isinstance i k in
    if negb b then first_instance k name l' else
    let! o := getobj i in
    if String.eqb (o_name o) name then mret (Some i) else first_instance k name l'
  end.
Definition find_instance (k : cls) (name : string) : M (option oid) := fun w =>
  first_instance k name (insts w) w.

(** The common beginning: checks, choice of the coordinates, and the look-up of a known
    result, which is made to use these coordinates by default. *)
Definition cached_curve (k : cls) (m : oid) (coords : option oid) (suffix : string)
  (compute : oid -> string -> M oid) : M oid :=
  let! b := isinstance m CMetric in
  if negb b then mraise ETypeError else
  let! b := match coords with None => mret true | Some c => isinstance c CCoordinates end in
  if negb b then mraise ETypeError else
  let! o := getobj m in
  let! c := match coords with Some c => mret c | None => mopt EAttributeError (o_coords o) end in
  let name := (o_name o ++ suffix)%string in
  let! known := find_instance k name in
  match known with
  | Some i =>
    let! oi := getobj i in
    if opt_oid_eqb (o_coords oi) (Some c) then mret i else (change_default_coords i c ;; mret i)
  | None => compute c name
  end.

(** metric.new_tensor("TEMP", entries, coords, (1,)), where the entries are computed from the
    symbols of the coordinates and their positions. *)
Definition temp_vector (m c : oid) (f : nat -> string -> K) : M oid :=
  let! oc := getobj c in
  let n := length (o_syms oc) in
  make_tensor CTensor "TEMP" (mkArr [n] (map (fun ix => f (fst ix) (snd ix)) (combine (seq 0 n) (o_syms oc))))
    (Some m) (Some c) [1]%Z "T".

(** The common end: the result is read, changed by [f], and published as a tensor of class k. *)
Definition publish_curve (k : cls) (m c r : oid) (f : K -> K) (name : string) (indices : list Z)
  (symbol : string) : M oid :=
  let! a := get_components r None None in
  make_tensor k name (amap f a) (Some m) (Some c) indices symbol.

(** Calc.py 1387-1455 *)
Definition calc_lagrangian (m : oid) (coords : option oid) : M oid :=
  cached_curve CLagrangian m coords " Lagrangian" (fun c name =>
    let! v := temp_vector m c (fun _ x => ksym (dot x)) in
    let! x := calc_call v ["mu"]%string in
    let! y := calc_call v ["mu"]%string in
    let! z := matmul0 x y in
    let! r := run_calc z "Result" "" [] in
    let! t := publish_curve CLagrangian m c r (fun e => e) name [] "L" in
    finish_calc r ;;
    mret t).

(** Calc.py 1559-1572: the clean-up of an equation (also 1661-1673 and 1776-1788). *)
Definition clean (e : K) : K := simp (kclean e).

(** Calc.py 1503-1557: the component for the coordinate x.  A coordinate that equals the
    parameter has not become a function (Coordinates.py 103-146), so the derivatives by it and
    by its velocity are 0 and it is differentiated as the parameter. *)
Definition euler_lagrange (p : string) (xs : list string) (l : K) (x : string) : K :=
  if String.eqb x p then k0 else
  ksub (total p (ddots (filter (fun y => negb (String.eqb y p)) xs)) (kdiff (dot x) l))
       (kdiff x l).

(** Calc.py 1458-1587; [p] is the curve parameter in force, line 1486. *)
Definition calc_geodesic_lagrangian_with (p : string) (m : oid) (coords : option oid) : M oid :=
  cached_curve CGeodesic m coords " Geodesic From Lagrangian" (fun c name =>
    let! l := calc_lagrangian m (Some c) in
    let! a := get_components l (Some c) None in
    let half := kmul (kinvn 2) (aget a []) in
    let! oc := getobj c in
    let xs := o_syms oc in
    let! t := make_tensor CGeodesic name
      (mkArr [length xs] (map (fun x => clean (euler_lagrange p xs half x)) xs))
      (Some m) (Some c) [1]%Z "0" in
    pass (if_named "TEMP" (fun i => delete i true)) ;;
    mret t).
(** With the default parameter. *)
Definition calc_geodesic_lagrangian : oid -> option oid -> M oid := calc_geodesic_lagrangian_with curve_parameter.

(** Calc.py 1590-1689 *)
Definition calc_geodesic_christoffel (m : oid) (coords : option oid) : M oid :=
  cached_curve CGeodesic m coords " Geodesic From Christoffel" (fun c name =>
    let! chr := calc_christoffel m in
    let! v := temp_vector m c (fun _ x => ksym (dot x)) in
    let! a := temp_vector m c (fun _ x => ksym (ddot x)) in
    let! xa := calc_call a ["sigma"]%string in
    let! g := calc_call chr ["sigma"; "mu"; "nu"]%string in
    let! y := calc_call v ["mu"]%string in
    let! z := matmul0 g y in
    let! y := calc_call v ["nu"]%string in
    let! z := matmul0 z y in
    let! z := calc_add xa (OCalc z) in
    let! r := run_calc z "Result" "" [] in
    let! t := publish_curve CGeodesic m c r clean name [1]%Z "0" in
    finish_calc r ;;
    mret t).

(** a[0, :, ..., :] *)
Definition first_slice (a : arr) : arr :=
  mkArr (tl (shape a)) (firstn (prodn (tl (shape a))) (data a)).

(** Calc.py 1692-1804 *)
Definition calc_geodesic_time (m : oid) (coords : option oid) : M oid :=
  cached_curve CGeodesic m coords " Geodesic With Time Parameter" (fun c name =>
    let! chr := calc_christoffel m in
    let! v := temp_vector m c (fun i x => if i =? 0 then k1 else ksym (dot x)) in
    let! a := temp_vector m c (fun i x => if i =? 0 then k0 else ksym (ddot x)) in
    let! e := get_components chr (Some c) None in
    let! chr0 := make_tensor CTensor "TEMP" (first_slice e) (Some m) (Some c) [-1; -1]%Z "T" in
    let! xa := calc_call a ["sigma"]%string in
    let! g := calc_call chr ["sigma"; "mu"; "nu"]%string in
    let! g0 := calc_call chr0 ["mu"; "nu"]%string in
    let! y := calc_call v ["sigma"]%string in
    let! z := matmul0 g0 y in
    let! z := calc_sub g (OCalc z) in
    let! y := calc_call v ["mu"]%string in
    let! z := matmul0 z y in
    let! y := calc_call v ["nu"]%string in
    let! z := matmul0 z y in
    let! z := calc_add xa (OCalc z) in
    let! r := run_calc z "Result" "" [] in
    let! t := publish_curve CGeodesic m c r clean name [1]%Z "0" in
    finish_calc r ;;
    mret t).

End GeodM.
