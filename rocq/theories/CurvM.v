(** Curvature tensors.  /repo/src/PyOGRe/Calc.py 1078-1381.  Definitions only.
    Simplification: the factors 1/(n-2) and 1/((n-2)(n-1)), which Python computes as floats and
    CalcObject.__mul__ turns back with sympy.nsimplify, are exact here. *)
From Coq Require Import DecimalString.
From Verif Require Export CalcM.

Section CurvM.
Context {A : AlgOps}.

(** The common beginning: isinstance check, look-up of a known result by name, and otherwise
    its computation. *)
Definition cached (m : oid) (suffix : string) (compute : string -> M oid) : M oid :=
  let! b := isinstance m CMetric in
  if negb b then mraise ETypeError else
  let! o := getobj m in
  let name := (o_name o ++ suffix)%string in
  let! known := find_named name in
  match known with
  | Some i => mret i
  | None => compute name
  end.

(** The common end: the intermediate tensor [r] is read in a configuration ([None]: its default
    one), and its components become a new tensor. *)
Definition publish (m r : oid) (get : option (list Z)) (name : string) (indices : list Z)
  (symbol : string) : M oid :=
  let! a := get_components r None get in
  let! o := getobj m in
  make_tensor CTensor name a (Some m) (o_coords o) indices symbol.

(** Calc.py 1079-1126 *)
Definition calc_riemann (m : oid) : M oid :=
  cached m " Riemann" (fun name =>
    let! chr := calc_christoffel m in
    let! d := PartialD ["mu"]%string in
    let! c := calc_call chr ["rho"; "nu"; "sigma"]%string in
    let! x1 := matmul0 d c in
    let! d := PartialD ["nu"]%string in
    let! c := calc_call chr ["rho"; "mu"; "sigma"]%string in
    let! x2 := matmul0 d c in
    let! x := calc_sub x1 (OCalc x2) in
    let! c := calc_call chr ["rho"; "mu"; "lambda"]%string in
    let! c' := calc_call chr ["lambda"; "nu"; "sigma"]%string in
    let! x3 := matmul0 c c' in
    let! x := calc_add x (OCalc x3) in
    let! c := calc_call chr ["rho"; "nu"; "lambda"]%string in
    let! c' := calc_call chr ["lambda"; "mu"; "sigma"]%string in
    let! x4 := matmul0 c c' in
    let! x := calc_sub x (OCalc x4) in
    let! r := run_calc x "Result" "" ["rho"; "sigma"; "mu"; "nu"]%string in
    let! t := publish m r (Some [1; -1; -1; -1]%Z) name [1; -1; -1; -1]%Z "R" in
    finish_calc r ;;
    mret t).

(** Calc.py 1129-1173 *)
Definition calc_ricci (m : oid) : M oid :=
  cached m " Ricci Tensor" (fun name =>
    let! rie := calc_riemann m in
    let! x := calc_call rie ["lambda"; "mu"; "lambda"; "nu"]%string in
    let! r := run_calc x "Result" "" [] in
    let! t := publish m r (Some [-1; -1]%Z) name [-1; -1]%Z "R" in
    finish_calc r ;;
    mret t).

(** Calc.py 1238-1282 *)
Definition calc_ricci_scalar (m : oid) : M oid :=
  cached m " Ricci Scalar" (fun name =>
    let! ric := calc_ricci m in
    let! x := calc_call ric ["lambda"; "lambda"]%string in
    let! r := run_calc x "Result" "" [] in
    let! t := publish m r None name [] "R" in
    finish_calc r ;;
    mret t).

(** Calc.py 1285-1330 *)
Definition calc_einstein (m : oid) : M oid :=
  cached m " Einstein" (fun name =>
    let! ric := calc_ricci m in
    let! sc := calc_ricci_scalar m in
    let! x1 := calc_call ric ["mu"; "nu"]%string in
    let! s := calc_call sc [] in
    let! s := calc_mul s (OScalar (kinvn 2)) in
    let! g := calc_call m ["mu"; "nu"]%string in
    let! x2 := matmul0 s g in
    let! x := calc_sub x1 (OCalc x2) in
    let! r := run_calc x "Result" "" [] in
    let! t := publish m r (Some [-1; -1]%Z) name [-1; -1]%Z "G" in
    finish_calc r ;;
    mret t).

(** 1/z *)
Definition inverse_int (z : Z) : M K :=
  if (z =? 0)%Z then mraise EZeroDivision
  else if (0 <? z)%Z then mret (kinvn (Z.to_nat z)) else mret (kopp (kinvn (Z.to_nat (- z)))).

(** Calc.py 1176-1235.  The last line deletes the Ricci tensor and not the intermediate
    tensor. *)
Definition calc_weyl (m : oid) : M oid :=
  cached m " Weyl Tensor" (fun name =>
    let! o := getobj m in
    let! c := mopt EAttributeError (o_coords o) in
    let! x := coord_components c in
    let n := Z.of_nat (length (data x)) in
    let! rie := calc_riemann m in
    let! ric := calc_ricci m in
    let! sc := calc_ricci_scalar m in
    let! r0 := calc_call rie ["i"; "k"; "l"; "m"]%string in
    let! f := inverse_int (n - 2) in
    let pair (s1 : list string) (s2 : list string) : M calc :=
      let! a := calc_call ric s1 in let! b := calc_call m s2 in matmul0 a b in
    let! y := pair ["i"; "m"]%string ["k"; "l"]%string in
    let! y' := pair ["i"; "l"]%string ["k"; "m"]%string in
    let! y := calc_sub y (OCalc y') in
    let! y' := pair ["k"; "l"]%string ["i"; "m"]%string in
    let! y := calc_add y (OCalc y') in
    let! y' := pair ["k"; "m"]%string ["i"; "l"]%string in
    let! y := calc_sub y (OCalc y') in
    let! y := calc_mul y (OScalar f) in
    let! x := calc_add r0 (OCalc y) in
    let! f := inverse_int ((n - 2) * (n - 1)) in
    let! s := calc_call sc [] in
    let! a := calc_call m ["i"; "l"]%string in
    let! b := calc_call m ["k"; "m"]%string in
    let! z := matmul0 a b in
    let! a := calc_call m ["i"; "m"]%string in
    let! b := calc_call m ["k"; "l"]%string in
    let! z' := matmul0 a b in
    let! z := calc_sub z (OCalc z') in
    let! z := matmul0 s z in
    let! z := calc_mul z (OScalar f) in
    let! x := calc_add x (OCalc z) in
    let! r := run_calc x "Result" "" ["i"; "k"; "l"; "m"]%string in
    let! t := publish m r (Some [-1; -1; -1; -1]%Z) name [-1; -1; -1; -1]%Z "C" in
    finish_calc ric ;;
    mret t).

(** sym.symbols("x:k") *)
Definition numbered (k : nat) : list string :=
  map (fun j => ("x" ++ NilEmpty.string_of_uint (Nat.to_uint j))%string) (seq 0 k).

(** Calc.py 1333-1381 *)
Definition calc_norm_squared (t : oid) : M oid :=
  fun w => match cls_of w t with
  | None | Some CCoordinates => (Err ETypeError, w)
  | _ =>
    (let! o := getobj t in
     let name := (o_name o ++ " Norm Squared")%string in
     let! known := find_named name in
     match known with
     | Some i => mret i
     | None =>
       let s := numbered (length (o_indices o)) in
       let! x := calc_call t s in
       let! y := calc_call t s in
       let! z := matmul0 x y in
       let! r := run_calc z "Result" "" [] in
       let! a := get_components r None None in
       let! o := getobj t in
       let! q := make_tensor CTensor name a (o_metric o) (o_coords o) [] "" in
       finish_calc r ;;
       mret q
     end) w
  end.

End CurvM.
