(** The component computations of Tensor.py, BaseTensor.py, Coordinates.py, Christoffel.py
    and Metric.py, without the caches (those are in WorldM.v).  Definitions only.
    Simplifications: an array of rank 0 is not distinguished from its single entry here
    (WorldM.is_expr tells them apart); coordinates and left sides of transformation rules are symbols (strings). *)
From Verif Require Export UtilsM.

Section TensorM.
Context {A : AlgOps}.

(** A transformation rule Eq(lhs, rhs). *)
Definition rule := (string * K)%type.

(** Tensor.py 145-168: the matrix contracted into one index. *)
Definition rl_matrix (g ginv : arr) (n : nat) (s t : Z) : list arr :=
  (if ((s =? -1) && (t =? 1))%Z then [ginv] else [])                     (* 147-152 *)
  ++ (if ((s =? 1) && (t =? -1))%Z then [g] else [])                      (* 155-160 *)
  ++ (if (s =? t)%Z then [eye n] else []).                                (* 163-168 *)

(** Tensor.py 121-183, _raise_lower: [g] and [ginv] are the metric components in the
    coordinates at hand with indices (-1,-1) and (1,1), [src] the source configuration,
    [tgt] the target configuration. *)
Definition rl_order (r i : nat) : list nat := ins_nth i 0 (seq 1 (r - 1)). (* 173-175 *)

Definition rl_step (acc : arr) (im : nat * arr) : res arr :=              (* 172-181 *)
  if rank acc =? 0 then Err EValueError else   (* [].remove(0) *)
  do c <- contract (snd im) acc [(1%Z, Z.of_nat (fst im))];
  permutedims c (rl_order (rank acc) (fst im)).

Definition raise_lower (g ginv : arr) (src tgt : list Z) (a : arr) : res arr :=
  let n := hd 0 (shape a) in
  let mats := flat_map (fun st => rl_matrix g ginv n (fst st) (snd st)) (combine src tgt) in
  do r <- rfold rl_step (combine (seq 0 (length mats)) mats) a;
  Ok (amap simp r).                                                       (* 183 *)

(** BaseTensor.py 139-150: Jacobian factors and the pairs of axes to contract. *)
Definition tr_factor (J Jinv : arr) (r : nat) (iz : nat * Z) : list (arr * (nat * nat)) :=
  let (i, z) := iz in
  (if (z =? 1)%Z then [(Jinv, (i, r + 2 * i + 1))] else [])
  ++ (if (z =? -1)%Z then [(J, (i, r + 2 * i))] else []).

Definition tr_factors (J Jinv : arr) (r : nat) (indices : list Z) : list (arr * (nat * nat)) :=
  flat_map (tr_factor J Jinv r) (combine (seq 0 (length indices)) indices).

Definition subs_rules (rules : list rule) (a : arr) : arr :=              (* 159-161 *)
  fold_left (fun a r => amap (ksub1 (fst r) (snd r)) a) rules a.

(** BaseTensor.py 148-155 (also Christoffel.py 107-114). *)
Definition jac_contract (J Jinv : arr) (r : nat) (indices : list Z) (a : arr) : res arr :=
  let fs := tr_factors J Jinv r indices in
  tcontract (fold_left tprod (map fst fs) a) (map snd fs).

(** BaseTensor.py 109-170, _transform_coordinates, from the components in the tensor's own
    coordinates to the components to be stored. *)
Definition transform (J Jinv : arr) (rules : list rule) (r : nat) (indices : list Z) (a : arr)
  : res arr :=
  do t <- jac_contract J Jinv r indices a;
  Ok (amap simp (subs_rules rules t)).                                    (* 169 *)

(** Coordinates.py 262-270: for each coordinate all its rules, or None (also
    Christoffel.py 77-85). *)
Definition ordered_rules (coords : list string) (rules : list rule) : list (option rule) :=
  flat_map (fun c => match filter (fun r => String.eqb (fst r) c) rules with
                     | [] => [None]
                     | l => map Some l
                     end) coords.

(** sym.diff(e, other_coordinates[j]); an index beyond the array is a ValueError. *)
Definition diff_at (other : list string) (j : nat) (e : K) : res K :=
  match nth_error other j with
  | Some s => Ok (kdiff s e)
  | None => Err EValueError
  end.

(** Coordinates.py 272-284 *)
Definition jacobian_of (other : list string) (ors : list (option rule)) : res arr :=
  let m := length ors in
  do z <- zero_tensor (Z.of_nat m) 2;
  rfold (fun acc io =>
    rfold (fun acc j =>
      match snd io with
      | None => aset acc [fst io; fst io] k1
      | Some r => do d <- diff_at other j (snd r); aset acc [fst io; j] d
      end) (seq 0 m) acc) (combine (seq 0 m) ors) z.

(** Coordinates.py 286-299 *)
Definition chr_jacobian_of (other : list string) (ors : list (option rule)) : res arr :=
  let m := length ors in
  do z <- zero_tensor (Z.of_nat m) 3;
  rfold (fun acc io =>
    rfold (fun acc j =>
      rfold (fun acc k =>
        match snd io with
        | None => Ok acc
        | Some r => do d <- diff_at other j (snd r); do d <- diff_at other k d;
                    aset acc [fst io; j; k] d
        end) (seq 0 m) acc) (seq 0 m) acc) (combine (seq 0 m) ors) z.

(** Coordinates.py 247-306, _calculate_jacobian: Jacobian, inverse Jacobian and array of
    second derivatives. *)
Definition calculate_jacobian (self other : list string) (rules : list rule)
  : res (arr * arr * arr) :=
  let ors := ordered_rules self rules in
  do j <- jacobian_of other ors;
  do c <- chr_jacobian_of other ors;
  let j := amap simp j in                                                 (* 301 *)
  do ji <- ainv j;                                                        (* 302 *)
  Ok (j, amap simp ji, amap simp c).

(** Christoffel.py 116-125. *)
Definition chr_extra (Jinv C : arr) : res arr := tcontract (tprod Jinv C) [(1, 2)].

(** Christoffel.py 127-133.  sympy.solve(Eq(x, rhs), x)[0] is taken to be rhs, which
    supposes that rhs does not contain x.  [zip] mirrors indexing the coordinates by the
    position in the ordered rules. *)
Fixpoint chr_subs (ors : list (option rule)) (coords : list string) (a : arr) : res arr :=
  match ors, coords with
  | [], _ => Ok a
  | None :: ors', _ :: cs => chr_subs ors' cs a
  | Some r :: ors', c :: cs => chr_subs ors' cs (amap (ksub1 c (snd r)) a)
  | None :: ors', [] => chr_subs ors' [] a
  | Some _ :: _, [] => Err EValueError
  end.

(** Christoffel.py 52-142, _transform_coordinates. *)
Definition christoffel_transform (coords : list string) (J Jinv C : arr) (rules : list rule)
  (r : nat) (indices : list Z) (a : arr) : res arr :=
  do t <- jac_contract J Jinv r indices a;
  do e <- chr_extra Jinv C;
  do t <- aadd t e;                                                       (* 125 *)
  do t <- chr_subs (ordered_rules coords rules) coords t;
  Ok (amap simp t).

(** *** Lagrangians and geodesic equations.  A function of the curve parameter and its
    derivatives are written as the symbols x, xdot and xddot throughout. *)

(** Options.py 31: the default of CURVE_PARAMETER, which is taken to stay as it is. *)
Definition curve_parameter : string := "lambda".

Definition dot (x : string) : string := (x ++ "dot")%string.
Definition ddot (x : string) : string := (x ++ "ddot")%string.

(** e.diff(parameter), where e depends on the parameter [p] through the symbols of [ds], given
    with their derivatives; a symbol of [ds] that equals [p] has become a function. *)
Definition total (p : string) (ds : list (string * string)) (e : K) : K :=
  kadd (if existsb (fun d => String.eqb (fst d) p) ds then k0 else kdiff p e)
       (lsum ds (fun d => kmul (kdiff (fst d) e) (ksym (snd d)))).

Definition dots (ys : list string) : list (string * string) := map (fun y => (y, dot y)) ys.
Definition ddots (ys : list string) : list (string * string) :=
  dots ys ++ map (fun y => (dot y, ddot y)) ys.

(** Lagrangian.py 129-160: the substitutions made for one rule, in the order of SymPy (by
    name: x before xdot). *)
Definition lagrange_rules (p : string) (ys : list string) (rules : list rule) : list rule :=
  flat_map (fun r => [r; (dot (fst r), total p (dots ys) (snd r))]) rules.

(** Lagrangian.py 57-169, _transform_coordinates; [ys] are the new coordinates. *)
Definition lagrangian_transform (p : string) (ys : list string) (J Jinv : arr)
  (rules : list rule) (r : nat) (indices : list Z) (a : arr) : res arr :=
  transform J Jinv (lagrange_rules p ys rules) r indices a.

(** Geodesic.py 142-190: the same with second derivatives (by name: x, xddot, xdot). *)
Definition geodesic_rules (p : string) (ys : list string) (rules : list rule) : list rule :=
  flat_map (fun r => let d := total p (dots ys) (snd r) in
    [r; (ddot (fst r), total p (ddots ys) d); (dot (fst r), d)]) rules.

(** Geodesic.py 57-213, _transform_coordinates; also 249-405 and 441-597.  The loop of lines
    200-209 runs over the components in the old coordinates and overwrites the transformed
    ones; the entries of an array of rank above 1 are arrays, which the loop passes over.
    Rank 0: the contraction is an expression, without as_mutable. *)
Definition geodesic_transform (p : string) (ys : list string) (J Jinv : arr)
  (rules : list rule) (r : nat) (indices : list Z) (a : arr) : res arr :=
  do t <- jac_contract J Jinv r indices a;
  let t := subs_rules (geodesic_rules p ys rules) t in
  match rank t with
  | 0 => Err EAttributeError
  | 1 => rfold (fun acc ie => aset acc [fst ie] (simp (kclean (snd ie))))
           (combine (seq 0 (length (data a))) (data a)) t
  | _ => Ok t
  end.

(** Metric.py 81-92: all representations in the metric's own coordinates. *)
Definition metric_representations (indices : list Z) (g : arr)
  : res (list (list Z * arr)) :=
  let n := hd 0 (shape g) in
  let d := [(indices, g)] in
  let d := dset cfg_eqb [1; -1]%Z (eye n) d in
  let d := dset cfg_eqb [-1; 1]%Z (eye n) d in
  do gi <- ainv g;
  Ok (dset cfg_eqb (map Z.opp indices) gi d).

(** Metric.py 135-164, after BaseTensor._transform_coordinates stored [t] under [indices]:
    [d] is the dictionary of the new coordinates, [self_indices] the default configuration. *)
Definition metric_fill (self_indices indices : list Z) (d : list (list Z * arr))
  : list (list Z * arr) * res unit :=
  match dget cfg_eqb self_indices d with
  | None => (d, Err EKeyError)                                            (* 140-142 *)
  | Some g =>
    match ainv g with
    | Err e => (d, Err e)
    | Ok gi =>
      let neg := map Z.opp indices in
      let d := dset cfg_eqb neg gi d in
      let i0 := nth 0 indices 0%Z in
      let i1 := nth 1 indices 0%Z in
      match dget cfg_eqb neg d, dget cfg_eqb indices d with
      | Some x, Some y =>
        match tcontract (tprod x y) [(1, 3)] with                         (* 144-152 *)
        | Err e => (d, Err e)
        | Ok m1 =>
          let d := dset cfg_eqb [i0; - i1]%Z m1 d in
          match dget cfg_eqb neg d, dget cfg_eqb indices d with
          | Some x, Some y =>
            match tcontract (tprod x y) [(0, 2)] with                     (* 154-164 *)
            | Err e => (d, Err e)
            | Ok m2 => (dset cfg_eqb [- i0; i1]%Z m2 d, Ok tt)
            end
          | _, _ => (d, Err EKeyError)
          end
        end
      | _, _ => (d, Err EKeyError)
      end
    end
  end.

End TensorM.
