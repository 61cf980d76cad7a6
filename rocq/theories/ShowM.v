(** What show, list and get_components display or return, with all their arguments.
    BaseTensor.py 183-398 and 458-514, Lagrangian.py 175-510, Geodesic.py 603-957, Coordinates.py
    312-345.  Definitions only.
    Simplifications: replace is as in CurveM.v; function is a function of expressions, with the
    arguments args included; the text around the components is left out (labels are in
    OptionsM.v); sympy.latex and sympy.mathematica_code are arbitrary functions. *)
From Coq Require Import String Ascii.
From Verif Require Export CurveM ListM.
Import List.

(** sympy.mathematica_code and sympy.latex, the latter followed by the change of brackets, of an
    array or of an expression. *)
Class Printers (A : AlgOps) := {
  p_mathematica : arr + K -> string;
  p_latex : arr + K -> string
}.

Section ShowM.
Context {A : AlgOps}.

(** components.reshape(components.shape[0], 1): BaseTensor.py 211-215. *)
Definition as_column (a : arr) : M arr :=
  match shape a with
  | [] => mraise EIndexError
  | n :: _ => if prodn (shape a) =? n then mret (mkArr [n; 1] (data a)) else mraise EValueError
  end.
Definition shown_form (rank : nat) (a : arr) : M arr := if rank =? 1 then as_column a else mret a.

(** The argument function: map_to_array raises TypeError on an expression (Utils.py 101-102). *)
Definition apply_function (f : option (K -> K)) (o : obj) (c : oid) (a : arr) : M arr :=
  match f with
  | None => mret a
  | Some f => if is_expr o c then mraise ETypeError else mlift (map_to_array a f)
  end.

(** The argument replace: BaseTensor.py 224-226, 299-301 and 496-498. *)
Definition apply_replace (r : option (list (string * K))) (a : arr) : arr :=
  match r with
  | None => a
  | Some r => amap (replace_symbols r) a
  end.

Definition asked (coords : option oid) (o : obj) : M oid :=
  match coords with Some c => mret c | None => mopt EAttributeError (o_coords o) end.

(** BaseTensor.py 458-506 *)
Definition get_components_all (f : option (K -> K)) (r : option (list (string * K))) (t : oid)
  (coords : option oid) (indices : option (list Z)) : M arr :=
  let! o := getobj t in
  let! c := asked coords o in
  let! a := get_components t coords indices in
  let! o := getobj t in
  let! a := apply_function f o c a in
  mret (apply_replace r a).

(** BaseTensor.py 183-226 *)
Definition show_components (f : option (K -> K)) (r : option (list (string * K))) (t : oid)
  (coords : option oid) (indices : option (list Z)) : M arr :=
  let! o := getobj t in
  let! c := asked coords o in
  let! a := get_components t coords indices in
  let! o := getobj t in
  let! a := shown_form (o_rank o) a in
  let! a := apply_function f o c a in
  mret (apply_replace r a).

(** BaseTensor.py 265-356: the range of the positions comes from the default coordinates. *)
Definition list_components (f : option (K -> K)) (r : option (list (string * K))) (t : oid)
  (coords : option oid) (indices : option (list Z)) : M groups :=
  let! o := getobj t in
  let! c := asked coords o in
  let! a := get_components t coords indices in
  let! o := getobj t in
  let! a := apply_function f o c a in
  let a := apply_replace r a in
  let! c0 := mopt EAttributeError (o_coords o) in
  let! oc := getobj c0 in
  mret (list_groups (length (o_syms oc)) (o_rank o) a).

(** *** The argument mode: BaseTensor.py 471-479 and 503-514 *)

Definition lower_char (c : ascii) : ascii :=
  let n := nat_of_ascii c in
  if (65 <=? n) && (n <=? 90) then ascii_of_nat (n + 32) else c.
Fixpoint lower (s : string) : string :=
  match s with
  | EmptyString => EmptyString
  | String c s' => String (lower_char c) (lower s')
  end.

Inductive output := OArray (a : arr) | OText (s : string).

Definition check_mode (mode : pyval) : M string :=
  match mode with
  | VStr s => if existsb (String.eqb (lower s)) ["sympy"; "mathematica"; "latex"]%string
              then mret (lower s) else mraise EValueError
  | _ => mraise ETypeError
  end.

Context {P : Printers A}.

Definition in_mode (mode : string) (a : arr) : output :=
  if String.eqb mode "sympy" then OArray a
  else if String.eqb mode "mathematica"
  then OText (p_mathematica (if rank a =? 0 then inr (aget a []) else inl a))
  else OText (p_latex (inl a)).

Definition get_components_mode (f : option (K -> K)) (r : option (list (string * K)))
  (mode : pyval) (t : oid) (coords : option oid) (indices : option (list Z)) : M output :=
  let! m := check_mode mode in
  let! a := get_components_all f r t coords indices in
  mret (in_mode m a).

(** *** Lagrangians and geodesic equations *)
Context {N : NumSubs A}.

(** The argument replace: Lagrangian.py 207-235, 301-329 and 465-492; with [time], Geodesic.py
    635-671, 736-772 and 905-940.  [xs]: the coordinates. *)
Definition apply_curve (time : bool) (p : string) (xs : list string)
  (r : option (list (string * K))) (a : arr) : arr :=
  match r with
  | None => a
  | Some r =>
    let a := amap (replace_curve p xs r) a in
    if time then amap (fun e => ksub1 (dot p) k1 (ksub1 (ddot p) k0 e)) a else a
  end.
Definition parameter (time : bool) (param : string) (xs : list string) : M string :=
  if time then mopt EIndexError (hd_error xs) else mret param.

(** Lagrangian.py 427-503, Geodesic.py 869-950 *)
Definition get_curve_all (time : bool) (param : string) (f : option (K -> K))
  (r : option (list (string * K))) (t : oid) (coords : option oid) (indices : option (list Z))
  : M arr :=
  let! o := getobj t in
  let! c := asked coords o in
  let! a := get_components t coords indices in
  let! o := getobj t in
  let! a := apply_function f o c a in
  let! oc := getobj c in
  let! p := parameter time param (o_syms oc) in
  mret (amap (value_function p (o_syms oc)) (apply_curve time p (o_syms oc) r a)).

(** Lagrangian.py 175-235, Geodesic.py 603-671: the coordinates stay symbols.  The parameter is
    read here also if replace is None. *)
Definition show_curve (time : bool) (param : string) (f : option (K -> K))
  (r : option (list (string * K))) (t : oid) (coords : option oid) (indices : option (list Z))
  : M arr :=
  let! o := getobj t in
  let! c := asked coords o in
  let! a := get_components t coords indices in
  let! o := getobj t in
  let! a := shown_form (o_rank o) a in
  let! a := apply_function f o c a in
  let! oc := getobj c in
  let! p := parameter time param (o_syms oc) in
  mret (apply_curve time p (o_syms oc) r a).

(** Lagrangian.py 274-380, Geodesic.py 709-823 *)
Definition list_curve (time : bool) (param : string) (f : option (K -> K))
  (r : option (list (string * K))) (t : oid) (coords : option oid) (indices : option (list Z))
  : M groups :=
  let! o := getobj t in
  let! c := asked coords o in
  let! a := get_components t coords indices in
  let! o := getobj t in
  let! a := apply_function f o c a in
  let! oc := getobj c in
  let! p := parameter time param (o_syms oc) in
  let a := apply_curve time p (o_syms oc) r a in
  let! c0 := mopt EAttributeError (o_coords o) in
  let! oc := getobj c0 in
  mret (list_groups (length (o_syms oc)) (o_rank o) a).

(** Coordinates.py 312-345; [a]: the components of the coordinates.  There is no special case for
    rank 0; LaTeX output is a column. *)
Definition coordinates_mode (mode : pyval) (t : oid) : M output :=
  let! m := check_mode mode in
  let! o := getobj t in
  let a := mkArr [length (o_syms o)] (map ksym (o_syms o)) in
  if String.eqb m "sympy" then mret (OArray a)
  else if String.eqb m "mathematica" then mret (OText (p_mathematica (inl a)))
  else let! b := as_column a in mret (OText (p_latex (inl b))).

End ShowM.
