(** Sessions: the registry of objects, constructors with their validation, the caches of
    components and Jacobians, deletion.  OGReObject.py, BaseTensor.py, Tensor.py, Metric.py,
    Christoffel.py, Coordinates.py, Options.py.  Definitions only.
    Simplifications: Python objects are numbered; a deleted object keeps its number and its
    class and loses its attributes; printing is left out; rules are given as lists whose
    None entries are dropped when stored (every reader skips them). *)
From Verif Require Export TensorM.

Section WorldM.
Context {A : AlgOps}.

(** Identity of a Python object (__eq__ and __hash__ go by id: OGReObject.py 105-131). *)
Definition oid := nat.

(** CGeodesic stands for the classes GeodesicLagrangian, GeodesicChristoffel and GeodesicTime,
    which differ in the curve parameter of an intermediate value only. *)
Inductive cls : Set := CCoordinates | CMetric | CTensor | CChristoffel | CLagrangian | CGeodesic.

Definition cls_eqb (a b : cls) : bool :=
  match a, b with
  | CCoordinates, CCoordinates | CMetric, CMetric | CTensor, CTensor
  | CChristoffel, CChristoffel | CLagrangian, CLagrangian | CGeodesic, CGeodesic => true
  | _, _ => false
  end.

(** Dictionaries from coordinates to index configurations to components. *)
Definition reps := list (list Z * arr).
Definition compsd := list (oid * reps).

(** The attributes of an object.  [o_coords] is None for Coordinates, [o_metric] is None
    for Coordinates and Some self for a Metric; [o_syms], [o_trans] and [o_jacs] belong to
    Coordinates.  The three dictionaries of Jacobians always have the same keys
    (Coordinates.py 304-306) and are one dictionary of triples here. *)
Record obj := mkObj {
  o_name : string;
  o_symbol : string;
  o_indices : list Z;
  o_rank : nat;
  o_coords : option oid;
  o_metric : option oid;
  o_comps : compsd;
  o_syms : list string;
  o_trans : list (oid * list rule);
  o_jacs : list (oid * (arr * arr * arr))
}.

Definition set_indices i o := mkObj (o_name o) (o_symbol o) i (o_rank o) (o_coords o)
  (o_metric o) (o_comps o) (o_syms o) (o_trans o) (o_jacs o).
Definition set_coords c o := mkObj (o_name o) (o_symbol o) (o_indices o) (o_rank o) c
  (o_metric o) (o_comps o) (o_syms o) (o_trans o) (o_jacs o).
Definition set_metric m o := mkObj (o_name o) (o_symbol o) (o_indices o) (o_rank o) (o_coords o)
  m (o_comps o) (o_syms o) (o_trans o) (o_jacs o).
Definition set_comps c o := mkObj (o_name o) (o_symbol o) (o_indices o) (o_rank o) (o_coords o)
  (o_metric o) c (o_syms o) (o_trans o) (o_jacs o).
Definition set_trans t o := mkObj (o_name o) (o_symbol o) (o_indices o) (o_rank o) (o_coords o)
  (o_metric o) (o_comps o) (o_syms o) t (o_jacs o).
Definition set_jacs j o := mkObj (o_name o) (o_symbol o) (o_indices o) (o_rank o) (o_coords o)
  (o_metric o) (o_comps o) (o_syms o) (o_trans o) j.
Definition set_symbol s o := mkObj (o_name o) s (o_indices o) (o_rank o) (o_coords o)
  (o_metric o) (o_comps o) (o_syms o) (o_trans o) (o_jacs o).
Definition set_name n o := mkObj n (o_symbol o) (o_indices o) (o_rank o) (o_coords o)
  (o_metric o) (o_comps o) (o_syms o) (o_trans o) (o_jacs o).

(** [heap]: class and attributes of every object ever created (None once deleted);
    [insts]: OGReObject._instances, the registry. *)
Record world := mkW { heap : list (cls * option obj); insts : list oid }.

Definition cls_of (w : world) (i : oid) : option cls := option_map fst (nth_error (heap w) i).
Definition obj_of (w : world) (i : oid) : option obj :=
  match nth_error (heap w) i with Some (_, o) => o | None => None end.

(** Statements that may raise; the state reached before the error is kept. *)
Definition M (X : Type) := world -> res X * world.
Definition mret {X} (x : X) : M X := fun w => (Ok x, w).
Definition mraise {X} (e : exn) : M X := fun w => (Err e, w).
Definition mlift {X} (r : res X) : M X := fun w => (r, w).
Definition mbind {X Y} (m : M X) (f : X -> M Y) : M Y := fun w =>
  match m w with
  | (Ok x, w') => f x w'
  | (Err e, w') => (Err e, w')
  end.

Notation "'let!' x := m 'in' k" := (mbind m (fun x => k))
  (at level 200, x pattern, m at level 100, k at level 200).
Notation "m ';;' k" := (mbind m (fun _ => k)) (at level 100, right associativity).

(** Attribute access: AttributeError on a deleted object. *)
Definition getobj (i : oid) : M obj := fun w =>
  match obj_of w i with Some o => (Ok o, w) | None => (Err EAttributeError, w) end.

Definition put (i : oid) (o : obj) : M unit := fun w =>
  match nth_error (heap w) i with
  | Some (c, _) => (Ok tt, mkW (set_nth i (c, Some o) (heap w)) (insts w))
  | None => (Err EAttributeError, w)
  end.

(** isinstance(i, c) for the classes Coordinates and Metric. *)
Definition isinstance (i : oid) (c : cls) : M bool := fun w =>
  (Ok (match cls_of w i with Some c' => cls_eqb c c' | None => false end), w).

(** A new object at the end of the registry (OGReObject.py 52). *)
Definition alloc (c : cls) (o : obj) : M oid := fun w =>
  (Ok (length (heap w)), mkW (heap w ++ [(c, Some o)]) (insts w ++ [length (heap w)])).

Definition mopt {X} (e : exn) (x : option X) : M X :=
  match x with Some y => mret y | None => mraise e end.

(** *** Arguments of the constructors *)

(** A Python value as far as the validation functions look at it.  [VSyms] is an Array whose
    entries are symbols, [VArr] any other Array, [VMat] a Matrix.  [VTuple]: a tuple, an
    entry that equals neither 1 nor -1 is any other integer. *)
Inductive pyval :=
| VNone
| VStr (s : string)
| VSymbol (s : string)
| VTuple (l : list Z)
| VArr (a : arr)
| VSyms (sh : list nat) (l : list string)
| VMat (a : arr)
| VObj (i : oid)
| VOther.

(** isinstance(v, sympy.Array), with the array *)
Definition as_array (v : pyval) : option arr :=
  match v with
  | VArr a => Some a
  | VSyms sh l => Some (mkArr sh (map ksym l))
  | _ => None
  end.

(** sympy.Array(m) for a Matrix m, other values unchanged: BaseTensor.py 54-55. *)
Definition mat_to_array (v : pyval) : pyval :=
  match v with VMat a => VArr a | _ => v end.

(** OGReObject.py 369-415.  [n]: the rank of the components, if given; [src]: the length of
    source_indices, if given. *)
Definition validate_indices (indices : pyval) (n src : option nat) : res unit :=
  match indices with
  | VNone => Ok tt
  | VTuple l =>
    if negb (forallb (fun z => (z =? -1) || (z =? 1))%Z l) then Err EIndicesValue
    else if match n with Some n => negb (n =? length l) | None => false end
    then Err EIndicesDimension
    else if match src with Some n => negb (n =? length l) | None => false end
    then Err EIndicesDimension
    else Ok tt
  | _ => Err ETypeError
  end.

(** OGReObject.py 418-460 *)
Definition validate_object (name components symbol indices : pyval) : res unit :=
  match name with
  | VStr _ =>
    match symbol with
    | VStr _ | VSymbol _ =>
      match as_array components with
      | None => Err ETypeError
      | Some a =>
        if negb (forallb (fun d => d =? hd 0 (shape a)) (shape a)) then Err ETensorDimension
        else validate_indices indices (Some (rank a)) None
      end
    | _ => Err ETypeError
    end
  | _ => Err ETypeError
  end.

(** BaseTensor.py 556-581; [n]: the number of coordinates. *)
Definition validate_base (name components symbol indices : pyval) (n : nat) : res unit :=
  do _ <- validate_object name components symbol indices;
  match as_array components with
  | Some a => if forallb (fun d => d =? n) (shape a) then Ok tt else Err ETensorCoordinates
  | None => Err ETypeError
  end.

(** sympy.Matrix(a).is_symmetric() *)
Definition is_symmetric (n : nat) (m : list K) : bool :=
  forallb (fun i => forallb (fun j => kisz (simp (ksub (mat_at n m i j) (mat_at n m j i))))
    (seq 0 n)) (seq 0 n).

(** Metric.py 497-536.  A Matrix of an array of rank 1 is a column; det() of a matrix that
    is not square, and a Matrix of an array of another rank, are errors of SymPy. *)
Definition validate_metric (name components symbol indices : pyval) : res unit :=
  match as_array (mat_to_array components) with
  | None => Err ETypeError
  | Some a =>
    do _ <- validate_object name (mat_to_array components) symbol indices;
    do n <- match shape a with
            | [n; m] => if n =? m then Ok n else Err ESymPy
            | [1] => Ok 1
            | _ => Err ESymPy
            end;
    if mdet0 n (data a) || negb (is_symmetric n (data a)) then Err EValueError else
    match indices with
    | VTuple l => if cfg_eqb l [1; -1]%Z || cfg_eqb l [-1; 1]%Z then Err EValueError
                  else if length l =? 2 then Ok tt else Err EIndicesDimension
    | _ => Ok tt
    end
  end.

(** A rule given by the user: None, an equation, or something else. *)
Inductive rarg := RNone | REq (r : rule) | RBad.

Definition rule_ok (r : rarg) : bool := match r with RBad => false | _ => true end.
Definition stored_rules (l : list rarg) : list rule :=
  flat_map (fun r => match r with REq r => [r] | _ => [] end) l.

(** Coordinates.py 562-602 *)
Definition validate_coordinates (name components indices symbol : pyval)
  (transformations : list (oid * list rarg)) : res unit :=
  do _ <- validate_object name components symbol indices;
  if match indices with VTuple l => negb (cfg_eqb l [1]%Z) | _ => false end
  then Err EIndicesValue
  else if match indices with VNone => false | _ => true end
          && negb (forallb (fun cr => forallb rule_ok (snd cr)) transformations)
  then Err ETypeError
  else match as_array components with
       | Some a => if rank a =? 1 then Ok tt else Err EValueError
       | None => Err ETypeError
       end.

(** OGReObject.py 58-62: str(symbol). *)
Definition sym_of (v : pyval) : string :=
  match v with VStr s | VSymbol s => s | _ => EmptyString end.
Definition name_of (v : pyval) : string := match v with VStr s => s | _ => EmptyString end.
Definition syms_of (v : pyval) : list string := match v with VSyms _ l => l | _ => [] end.

(** OGReObject.py 63 *)
Definition default_indices (indices : pyval) (r : nat) : list Z :=
  match indices with VTuple l => l | _ => repeat (-1)%Z r end.

(** *** Constructors *)

(** Coordinates.py 45-82.  The dictionary of transformations is copied here, where Python
    shares it with the caller.  An entry of rules that are not equations is accepted when
    indices is None; such rules are dropped here. *)
Definition new_coordinates (name components indices symbol : pyval)
  (transformations : list (oid * list rarg)) : M oid :=
  mlift (validate_coordinates name components indices symbol transformations) ;;
  let! a := mopt ETypeError (as_array components) in
  fun w =>
    let self := length (heap w) in
    alloc CCoordinates (mkObj (name_of name) (sym_of symbol) (default_indices indices (rank a))
      (rank a) None None [(self, [([1]%Z, a)])] (syms_of components)
      (map (fun cr => (fst cr, stored_rules (snd cr))) transformations) []) w.

(** coords._components[coords][(1,)]: BaseTensor.py 61 *)
Definition coord_components (c : oid) : M arr :=
  let! o := getobj c in
  let! d := mopt EKeyError (dget Nat.eqb c (o_comps o)) in
  mopt EKeyError (dget cfg_eqb [1]%Z d).

(** BaseTensor.py 34-77.  len(coords._components[...]) is the number of entries. *)
Definition base_ctor (k : cls) (name components coords indices symbol : pyval)
  (metric : option oid) : M oid :=
  match coords with
  | VObj c =>
    let! b := isinstance c CCoordinates in
    if negb b then mraise ETypeError else
    let components := mat_to_array components in
    let! x := coord_components c in
    mlift (validate_base name components symbol indices (length (data x))) ;;
    let! a := mopt ETypeError (as_array components) in
    alloc k (mkObj (name_of name) (sym_of symbol) (default_indices indices (rank a)) (rank a)
      (Some c) metric [(c, [(default_indices indices (rank a), a)])] [] [] [])
  | _ => mraise ETypeError
  end.

(** Tensor.py 48-78; also Christoffel, Lagrangian and the three geodesic classes, which
    inherit from Tensor and add no constructor. *)
Definition new_tensor_as (k : cls) (name components metric coords indices symbol : pyval)
  : M oid :=
  match metric with
  | VObj m =>
    let! b := isinstance m CMetric in
    if negb b then mraise ETypeError else
    base_ctor k name components coords indices symbol (Some m)
  | _ => mraise ETypeError
  end.

Definition new_tensor := new_tensor_as CTensor.
Definition new_christoffel := new_tensor_as CChristoffel.
Definition new_lagrangian := new_tensor_as CLagrangian.
Definition new_geodesic := new_tensor_as CGeodesic.

(** Metric.py 53-92.  After the base constructor the object is registered; the remaining
    statements can still raise: line 90 iterates over the argument [indices], which may be
    None, and line 91 inverts the matrix. *)
Definition new_metric (name components coords indices symbol : pyval) : M oid :=
  mlift (validate_metric name components symbol indices) ;;
  let! self := base_ctor CMetric name (mat_to_array components) coords indices symbol None in
  let! o := getobj self in
  let o := set_metric (Some self) o in                                    (* 80 *)
  put self o ;;
  let! c := mopt EAttributeError (o_coords o) in
  let! d := mopt EKeyError (dget Nat.eqb c (o_comps o)) in
  let! g := mopt EKeyError (dget cfg_eqb (o_indices o) d) in
  let n := hd 0 (shape g) in
  let d := dset cfg_eqb [1; -1]%Z (eye n) d in                            (* 82-84 *)
  let d := dset cfg_eqb [-1; 1]%Z (eye n) d in                            (* 85-87 *)
  put self (set_comps (dset Nat.eqb c d (o_comps o)) o) ;;
  match indices with
  | VTuple l =>
    let! gi := mlift (ainv g) in                                          (* 88-90 *)
    put self (set_comps (dset Nat.eqb c (dset cfg_eqb (map Z.opp l) gi d) (o_comps o)) o) ;;
    mret self
  | _ => mraise ETypeError
  end.

(** *** Caches of Jacobians *)

(** Coordinates.py 247-306 *)
Definition w_calculate_jacobian (self coords : oid) : M unit :=
  let! so := getobj self in
  let! co := getobj coords in
  let! rules := mopt EKeyError (dget Nat.eqb coords (o_trans so)) in
  let! j := mlift (calculate_jacobian (o_syms so) (o_syms co) rules) in
  put self (set_jacs (dset Nat.eqb coords j (o_jacs so)) so).

(** Coordinates.py 228-245; the error message reads coords._name. *)
Definition w_check_jacobians (self coords : oid) : M unit :=
  let! so := getobj self in
  if dmem Nat.eqb coords (o_jacs so) then mret tt
  else if dmem Nat.eqb coords (o_trans so) then w_calculate_jacobian self coords
  else (getobj coords ;; mraise ETransformation).

(** Coordinates.py 406-485, with rules or None. *)
Definition add_coord_transformation (self : oid) (coords : pyval) (rules : option (list rarg))
  : M unit :=
  match coords with
  | VObj c =>
    let! b := isinstance c CCoordinates in
    if negb b then mraise ETransformation
    else if self =? c then mraise ETransformation
    else
      let! so := getobj self in
      match rules with
      | None => if dmem Nat.eqb c (o_trans so)
                then put self (set_trans (ddel Nat.eqb c (o_trans so)) so)
                else mraise EKeyError
      | Some l => if forallb rule_ok l
                  then put self (set_trans (dset Nat.eqb c (stored_rules l) (o_trans so)) so)
                  else mraise ETypeError
      end
  | _ => mraise ETransformation
  end.

(** *** Caches of components *)

(** self._components[coords][indices] = a, creating the inner dictionary if needed:
    BaseTensor.py 163-170. *)
Definition store (t coords : oid) (indices : list Z) (a : arr) : M unit :=
  let! o := getobj t in
  let d := match dget Nat.eqb coords (o_comps o) with Some d => d | None => [] end in
  put t (set_comps (dset Nat.eqb coords (dset cfg_eqb indices a d) (o_comps o)) o).

(** self._components[coords][indices] *)
Definition lookup (t coords : oid) (indices : list Z) : M arr :=
  let! o := getobj t in
  let! d := mopt EKeyError (dget Nat.eqb coords (o_comps o)) in
  mopt EKeyError (dget cfg_eqb indices d).

(** Is the scalar stored for the coordinates c an expression, and not an Array?  The components
    given to the constructor are an Array, and their coordinates are the first key of the
    dictionary.  A change of coordinates stores what sympy.tensorcontraction returns, for a
    scalar an expression. *)
Definition is_expr (o : obj) (c : oid) : bool :=
  (o_rank o =? 0) &&
  negb (match o_comps o with (c0, _) :: _ => c0 =? c | [] => false end).

(** sympy.tensorcontraction asks its argument for its rank, which an expression does not
    have: BaseTensor.py 149-155, Christoffel.py 108-114, Lagrangian.py 98-104, Geodesic.py 98-104. *)
Definition need_array (o : obj) (c : oid) : M unit :=
  if is_expr o c then mraise EAttributeError else mret tt.

(** BaseTensor.py 109-170 *)
Definition base_transform (t coords : oid) (indices : list Z) : M unit :=
  let! o := getobj t in
  let! c := mopt EAttributeError (o_coords o) in
  w_check_jacobians c coords ;;
  let! a := lookup t c indices in
  let! co := getobj c in
  let! (J, Jinv, _) := mopt EKeyError (dget Nat.eqb coords (o_jacs co)) in
  let! rules := mopt EKeyError (dget Nat.eqb coords (o_trans co)) in
  need_array o c ;;
  let! x := mlift (transform J Jinv rules (o_rank o) indices a) in
  store t coords indices x.

(** Metric.py 130-164 *)
Definition metric_transform (t coords : oid) (indices : list Z) : M unit :=
  base_transform t coords indices ;;
  let! o := getobj t in
  let! d := mopt EKeyError (dget Nat.eqb coords (o_comps o)) in
  let (d', r) := metric_fill (o_indices o) indices d in
  put t (set_comps (dset Nat.eqb coords d' (o_comps o)) o) ;;
  mlift r.

(** Christoffel.py 52-142 *)
Definition w_christoffel_transform (t coords : oid) (indices : list Z) : M unit :=
  let! o := getobj t in
  let! c := mopt EAttributeError (o_coords o) in
  w_check_jacobians c coords ;;
  let! a := lookup t c indices in
  let! co := getobj c in
  let! (J, Jinv, C) := mopt EKeyError (dget Nat.eqb coords (o_jacs co)) in
  let! rules := mopt EKeyError (dget Nat.eqb coords (o_trans co)) in
  need_array o c ;;
  let! x := mlift (christoffel_transform (o_syms co) J Jinv C rules (o_rank o) indices a) in
  store t coords indices x.

(** Lagrangian.py 57-169 and Geodesic.py 57-213: the transformation [f] also reads the symbols
    of the new coordinates.  They are read here before the contraction. *)
Definition w_curve_transform
  (f : string -> list string -> arr -> arr -> list rule -> nat -> list Z -> arr -> res arr)
  (t coords : oid) (indices : list Z) : M unit :=
  let! o := getobj t in
  let! c := mopt EAttributeError (o_coords o) in
  w_check_jacobians c coords ;;
  let! a := lookup t c indices in
  let! co := getobj c in
  let! (J, Jinv, _) := mopt EKeyError (dget Nat.eqb coords (o_jacs co)) in
  let! rules := mopt EKeyError (dget Nat.eqb coords (o_trans co)) in
  need_array o c ;;
  let! no := getobj coords in
  let! x := mlift (f curve_parameter (o_syms no) J Jinv rules (o_rank o) indices a) in
  store t coords indices x.

(** Metric.py 118-128 *)
Definition metric_check (t coords : oid) : M bool :=
  let! o := getobj t in mret (dmem Nat.eqb coords (o_comps o)).

(** Tensor.py 121-183 *)
Definition w_raise_lower (t coords : oid) (indices : list Z) : M unit :=
  let! o := getobj t in
  let! m := mopt EAttributeError (o_metric o) in
  let! b := metric_check m coords in
  (if b then mret tt else metric_transform m coords [-1; -1]%Z) ;;
  let! o := getobj t in
  let! d := mopt EKeyError (dget Nat.eqb coords (o_comps o)) in
  let! (src, a) := mopt EIndexError (hd_error d) in                       (* 135 *)
  let! g := lookup m coords [-1; -1]%Z in
  let! gi := lookup m coords [1; 1]%Z in
  let! x := mlift (raise_lower g gi src indices a) in
  store t coords indices x.

(** Tensor.py 104-119 *)
Definition tensor_check (t coords : oid) (indices : list Z) : M bool :=
  let! o := getobj t in
  match dget Nat.eqb coords (o_comps o) with
  | None => mret false
  | Some d => if dmem cfg_eqb indices d then mret true
              else (w_raise_lower t coords indices ;; mret true)
  end.

(** Tensor.py 185-197 *)
Definition tensor_transform (t coords : oid) (indices : list Z) : M unit :=
  let! o := getobj t in
  let! c := mopt EAttributeError (o_coords o) in
  let! b := tensor_check t c indices in
  (if b then mret tt else w_raise_lower t c indices) ;;
  base_transform t coords indices.

(** Dispatch on the class of the object. *)
Definition check_representation (t coords : oid) (indices : list Z) : M bool := fun w =>
  match cls_of w t with
  | Some CMetric => metric_check t coords w
  | Some CTensor | Some CChristoffel | Some CLagrangian | Some CGeodesic =>
    tensor_check t coords indices w
  | _ => mraise EAttributeError w
  end.

Definition transform_coordinates (t coords : oid) (indices : list Z) : M unit := fun w =>
  match cls_of w t with
  | Some CMetric => metric_transform t coords indices w
  | Some CTensor => tensor_transform t coords indices w
  | Some CChristoffel => w_christoffel_transform t coords indices w
  | Some CLagrangian => w_curve_transform lagrangian_transform t coords indices w
  | Some CGeodesic => w_curve_transform geodesic_transform t coords indices w
  | _ => mraise EAttributeError w
  end.

(** BaseTensor.py 83-107; [indices] is a tuple. *)
Definition get_representation (t coords : oid) (indices : list Z) : M arr :=
  let! b := isinstance coords CCoordinates in
  if negb b then mraise ETypeError else
  let! o := getobj t in
  mlift (validate_indices (VTuple indices) None (Some (length (o_indices o)))) ;;
  let! b := check_representation t coords indices in
  (if b then mret tt else transform_coordinates t coords indices) ;;
  lookup t coords indices.

(** BaseTensor.py 458-514 without mode, function and replace; None stands for the default. *)
Definition get_components (t : oid) (coords : option oid) (indices : option (list Z)) : M arr :=
  let! o := getobj t in
  let! c := match coords with Some c => mret c | None => mopt EAttributeError (o_coords o) end in
  get_representation t c (match indices with Some i => i | None => o_indices o end).

(** BaseTensor.py 410-427; [indices] is a tuple. *)
Definition change_default_indices (t : oid) (indices : list Z) : M unit :=
  let! o := getobj t in
  mlift (validate_indices (VTuple indices) None (Some (length (o_indices o)))) ;;
  let! c := mopt EAttributeError (o_coords o) in
  let! b := check_representation t c indices in
  if b then (let! o := getobj t in put t (set_indices indices o)) else mret tt.

(** BaseTensor.py 429-456 *)
Definition change_default_coords (t coords : oid) : M unit :=
  let! b := isinstance coords CCoordinates in
  if negb b then mraise ETypeError else
  let! o := getobj t in
  let! c := mopt EAttributeError (o_coords o) in
  if c =? coords then mret tt else
  let! co := getobj c in
  if negb (dmem Nat.eqb coords (o_trans co)) then (getobj coords ;; mraise ETransformation) else
  let! b := check_representation t coords (o_indices o) in
  (if b then mret tt else transform_coordinates t coords (o_indices o)) ;;
  let! o := getobj t in
  put t (set_coords (Some coords) o).

(** OGReObject.py 302-317 *)
Definition change_name (t : oid) (name : pyval) : M unit :=
  match name with
  | VStr s => let! o := getobj t in put t (set_name s o)
  | _ => mraise ETypeError
  end.

(** OGReObject.py 319-343 *)
Definition change_symbol (t : oid) (symbol : pyval) : M unit :=
  match symbol with
  | VStr s | VSymbol s => let! o := getobj t in put t (set_symbol s o)
  | _ => mraise ETypeError
  end.

(** BaseTensor.py 516-522 and 584-645: all stored components are simplified.  The number of
    coordinates is read for the progress bar.  Rank 0: sympy.Array(...)[0] is a ValueError. *)
Definition simplify_reps (d : reps) : reps := map (fun ia => (fst ia, amap simp (snd ia))) d.
Definition simplify_tensor (t : oid) : M unit :=
  let! o := getobj t in
  let! c := mopt EAttributeError (o_coords o) in
  coord_components c ;;
  if o_rank o =? 0
  then match flat_map snd (o_comps o) with [] => mret tt | _ => mraise EValueError end
  else put t (set_comps (map (fun cd => (fst cd, simplify_reps (snd cd))) (o_comps o)) o).

(** BaseTensor.py 458-498 with the argument function: map_to_array raises TypeError on an
    expression (Utils.py 101-102). *)
Definition get_components_with (f : K -> K) (t : oid) (coords : option oid)
  (indices : option (list Z)) : M arr :=
  let! o := getobj t in
  let! c := match coords with Some c => mret c | None => mopt EAttributeError (o_coords o) end in
  let! a := get_components t coords indices in
  let! o := getobj t in
  if is_expr o c then mraise ETypeError else mlift (map_to_array a f).

(** *** Deletion *)

(** OGReObject.py 211-235: does [o] use [t]?  hasattr fails where a field is None. *)
Definition uses (t : oid) (o : obj) : bool :=
  dmem Nat.eqb t (o_comps o)
  || match o_metric o with Some m => m =? t | None => false end
  || match o_coords o with Some c => c =? t | None => false end
  || dmem Nat.eqb t (o_trans o).

(** OGReObject.py 203-261.  The error message and, unless silent, the report read
    self._name.  list.remove raises ValueError when the object is not registered. *)
Definition delete (t : oid) (silent : bool) : M unit := fun w =>
  let used := find (fun i => negb (i =? t) &&
      match obj_of w i with Some o => uses t o | None => true end) (insts w) in
  match used with
  | Some i => match obj_of w i, obj_of w t with
              | Some _, Some _ => (Err EPermissionError, w)
              | _, _ => (Err EAttributeError, w)
              end
  | None =>
    match obj_of w t with
    | None => if silent
              then match index_of Nat.eqb t (insts w) with
                   | Some p => (Ok tt, mkW (heap w) (del_nth p (insts w)))
                   | None => (Err EValueError, w)
                   end
              else (Err EAttributeError, w)
    | Some _ =>
      let h := match nth_error (heap w) t with
               | Some (c, _) => set_nth t (c, None) (heap w)
               | None => heap w
               end in
      match index_of Nat.eqb t (insts w) with
      | Some p => (Ok tt, mkW h (del_nth p (insts w)))
      | None => (Err EValueError, mkW h (insts w))
      end
    end
  end.

(** try: t.delete(silent) except PermissionError: pass *)
Definition try_delete (t : oid) (silent : bool) : M unit := fun w =>
  match delete t silent w with
  | (Err EPermissionError, w') => (Ok tt, w')
  | r => r
  end.

(** for instance in _instances: body(instance), where the body may remove elements from the
    list that is iterated over: CPython keeps a position and compares it with the current
    length.  [fuel] bounds the number of visits; the list never grows here. *)
Fixpoint for_instances (fuel pos : nat) (body : oid -> M unit) : M unit := fun w =>
  match nth_error (insts w) pos with
  | None => (Ok tt, w)
  | Some i =>
    match fuel with
    | O => (Err EFuel, w)
    | S f => (body i ;; for_instances f (S pos) body) w
    end
  end.

Definition pass (body : oid -> M unit) : M unit := fun w =>
  for_instances (length (insts w)) 0 body w.

Fixpoint times (n : nat) (m : M unit) : M unit :=
  match n with O => mret tt | S n' => (m ;; times n' m) end.

(** if instance._name == name: body *)
Definition if_named (name : string) (body : oid -> M unit) (i : oid) : M unit :=
  let! o := getobj i in
  if String.eqb (o_name o) name then body i else mret tt.

(** Options.py 300-315 *)
Definition delete_results (silent : bool) : M unit :=
  times 4 (pass (if_named "Result" (fun i => try_delete i silent))).

(** Options.py 331-343; line 343 binds a new empty list. *)
Definition clear_instances : M unit :=
  delete_results true ;;
  times 4 (pass (fun i => try_delete i true)) ;;
  (fun w => (Ok tt, mkW (heap w) [])).

(** Calc.py 1022-1025: the clean-up at the end of Calc. *)
Definition clean_temporaries : M unit :=
  times 2 (pass (if_named "TEMP" (fun i => delete i true))).

End WorldM.

Arguments obj {A}. Arguments world {A}. Arguments pyval {A}. Arguments rarg {A}.

Notation "'let!' x := m 'in' k" := (mbind m (fun x => k))
  (at level 200, x pattern, m at level 100, k at level 200).
Notation "m ';;' k" := (mbind m (fun _ => k)) (at level 100, right associativity).
