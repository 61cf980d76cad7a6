(** Tensor formulas: CalcObject and Calc.  /repo/src/PyOGRe/Calc.py 28-1076.  Definitions only.
    Simplifications: index strings are given as the lists of symbols that sympy.symbols
    makes of them ("" and () are the empty list); symbols are strings; sympy.nsimplify is
    exact on the numbers used. *)
From Verif Require Export UtilsM WorldM.

Section CalcM.
Context {A : AlgOps}.

Inductive role : Set := RTensor | RPartial | RCovariant.

(** CalcObject: tensor, indices, role (Calc.py 47). *)
Record calc := mkCalc { c_tensor : option oid; c_syms : list string; c_role : role }.

(** The other operand of an operator: an object equal to 0, a CalcObject, a scalar (number or
    SymPy expression), or something else. *)
Inductive operand := OZero | OCalc (c : calc) | OScalar (k : K) | OOther.

Definition smem (s : string) (l : list string) : bool := existsb (String.eqb s) l.
Definition spos (s : string) (l : list string) : option nat := index_of String.eqb s l.

(** x[i] on a tuple *)
Definition mnth {X} (l : list X) (i : nat) : M X := mopt EIndexError (nth_error l i).
Fixpoint mmap {X Y} (f : X -> M Y) (l : list X) : M (list Y) :=
  match l with
  | [] => mret []
  | x :: l' => let! y := f x in let! ys := mmap f l' in mret (y :: ys)
  end.
Fixpoint mfold {X Y} (f : X -> Y -> M X) (l : list Y) (x : X) : M X :=
  match l with [] => mret x | y :: l' => let! x' := f x y in mfold f l' x' end.

(** An attribute of calc.tensor: None has no attributes. *)
Definition tensor_of (c : calc) : M oid := mopt EAttributeError (c_tensor c).

(** t._components[t._coordinates][t._indices] *)
Definition default_components (t : oid) : M arr :=
  let! o := getobj t in
  let! c := mopt EAttributeError (o_coords o) in
  lookup t c (o_indices o).

(** Tensor(name, components, metric, coords, indices, symbol) with an optional metric and
    coordinates read from other objects. *)
Definition make_tensor (k : cls) (name : string) (a : arr) (metric coords : option oid)
  (indices : list Z) (symbol : string) : M oid :=
  let val x := match x with Some i => VObj i | None => VNone end in
  new_tensor_as k (VStr name) (VArr a) (val metric) (val coords) (VTuple indices) (VSymbol symbol).

(** Positions of a symbol in a tuple: Calc.py 94-98. *)
Definition positions (s : string) (l : list string) : list nat :=
  map fst (filter (fun iv => String.eqb s (snd iv)) (combine (seq 0 (length l)) l)).

(** One round of the loop over the symbols: Calc.py 83-136.  The loop runs over the original
    tuple, the counts are those of the current one. *)
Definition trace_step (ts : option oid * list string) (s : string)
  : M (option oid * list string) :=
  let (t, syms) := ts in
  let n := count String.eqb s syms in
  if 2 <? n then mraise EValueError                                       (* 86-89 *)
  else if n =? 2 then
    let! t := mopt EAttributeError t in
    let ps := positions s syms in
    let p0 := nth 0 ps 0 in let p1 := nth 1 ps 0 in
    let! o := getobj t in
    let! z0 := mnth (o_indices o) p0 in
    let! z1 := mnth (o_indices o) p1 in                                   (* 101-104 *)
    let! m := mopt EAttributeError (o_metric o) in
    let! g := get_components m None (Some [- z0; - z1]%Z) in              (* 105 *)
    let! a := get_components t None None in
    let! x := mlift (contract g a [(0, Z.of_nat p0); (1, Z.of_nat p1)]%Z) in
    let! o := getobj t in
    let indices := map snd (filter (fun iz => negb (existsb (Nat.eqb (fst iz)) ps))
                     (combine (seq 0 (length (o_indices o))) (o_indices o))) in
    let! t' := make_tensor CTensor "TEMP" x (o_metric o) (o_coords o) indices (o_symbol o) in
    mret (Some t', filter (fun s' => negb (String.eqb s s')) syms)
  else mret (t, syms).

(** Calc.py 49-141 *)
Definition calc_init (t : option oid) (syms : list string) (r : role) : M calc :=
  (match t with
   | None => mret tt
   | Some i => fun w => match cls_of w i with
                        | None | Some CCoordinates => (Err ETypeError, w)
                        | _ => (Ok tt, w)
                        end
   end) ;;
  (match t with
   | None => mret tt
   | Some i =>
     let! o := getobj i in
     let! a := get_components i None None in
     mlift (validate_indices (VTuple (o_indices o)) (Some (rank a)) None)  (* 76-80 *)
   end) ;;
  let! (t, syms) := mfold trace_step syms (t, syms) in
  mret (mkCalc t syms r).

(** t("...") : Tensor.py 84-98, Metric.py 98-112. *)
Definition calc_call (t : oid) (syms : list string) : M calc := calc_init (Some t) syms RTensor.

(** PartialD and CovariantD: Calc.py 889-933. *)
Definition derivative (r : role) (syms : list string) : M calc :=
  match syms with
  | [] | [_] => mret (mkCalc None syms r)
  | _ => mraise EValueError
  end.
Definition PartialD := derivative RPartial.
Definition CovariantD := derivative RCovariant.

(** other in list(permutations(self)) *)
Definition is_permutation (l l' : list string) : bool :=
  (length l =? length l') &&
  forallb (fun s => count String.eqb s l =? count String.eqb s l') (l ++ l').

Definition opt_oid_eqb (a b : option oid) : bool :=
  match a, b with
  | Some i, Some j => i =? j
  | None, None => true
  | _, _ => false
  end.

(** getattr(tensor, "_metric", None): None also for a deleted tensor *)
Definition metric_attr (t : option oid) : M (option oid) := fun w =>
  (Ok (match t with
       | Some t => match obj_of w t with Some o => o_metric o | None => None end
       | None => None
       end), w).

Definition is_tensor_role (r : role) : bool := match r with RTensor => true | _ => false end.

(** Calc.py 156-265 *)
Definition calc_add (self : calc) (other : operand) : M calc :=
  match other with
  | OZero => mret self
  | OScalar _ | OOther => mraise ETypeError
  | OCalc other =>
    if negb (is_tensor_role (c_role self)) || negb (is_tensor_role (c_role other))
    then mraise EValueError else
    let! m1 := metric_attr (c_tensor self) in
    let! m2 := metric_attr (c_tensor other) in
    if negb (opt_oid_eqb m1 m2) then mraise EValueError else
    let! t1 := tensor_of self in let! o1 := getobj t1 in
    let! t2 := tensor_of other in let! o2 := getobj t2 in
    if negb (o_rank o1 =? o_rank o2) then mraise EValueError else
    let s1 := c_syms self in let s2 := c_syms other in
    if negb (length s1 =? 0) && negb (length s2 =? 0) && negb (is_permutation s1 s2)
    then mraise EValueError else
    let! a1 := get_components t1 (o_coords o1) (Some (o_indices o1)) in   (* 223-226 *)
    let! p := mmap (fun s => mopt EKeyError (spos s s2)) s1 in            (* 227-230 *)
    let! q := mmap (fun s => mopt EKeyError (spos s s1)) s2 in            (* 231-234 *)
    let! i2 := mmap (mnth (o_indices o1)) q in                            (* 235-238 *)
    let! a2 := get_components t2 (o_coords o1) (Some i2) in               (* 239-242 *)
    let! b := mlift (permutedims a2 p) in
    let! x := mlift (aadd a1 b) in
    let x := if o_rank o1 =? 0 then x else amap simp x in                 (* 250-254 *)
    let! t := make_tensor CTensor "TEMP" x (o_metric o1) (o_coords o1) (o_indices o1) "T" in
    calc_init (Some t) s1 RTensor
  end.

(** The components that are handed to the constructor of Tensor must be a sympy Array
    (OGReObject.py 441-444), which those of a scalar are not after a change of its default
    coordinates; __mul__ makes an Array of them (417), __neg__ and __truediv__ do not. *)
Definition need_components (o : obj) : M unit :=
  match o_coords o with
  | Some c => if is_expr o c then mraise ETypeError else mret tt
  | None => mret tt
  end.

(** Calc.py 276-301 *)
Definition calc_neg (self : calc) : M calc :=
  if negb (is_tensor_role (c_role self)) then mraise EValueError else
  let! t := tensor_of self in
  let! a := default_components t in
  let! o := getobj t in
  need_components o ;;
  let! t' := make_tensor CTensor "TEMP" (amap kopp a) (o_metric o) (o_coords o) (o_indices o) "T" in
  calc_init (Some t') (c_syms self) RTensor.

(** Calc.py 303-345.  The comparison of the metrics reads attributes that a CalcObject does
    not have (324), so it never fails; __add__ compares them again. *)
Definition calc_sub (self : calc) (other : operand) : M calc :=
  match other with
  | OZero => mret self
  | OScalar _ | OOther => mraise ETypeError
  | OCalc other =>
    if negb (is_tensor_role (c_role self)) || negb (is_tensor_role (c_role other))
    then mraise EValueError else
    let! t1 := tensor_of self in let! o1 := getobj t1 in
    let! t2 := tensor_of other in let! o2 := getobj t2 in
    if negb (o_rank o1 =? o_rank o2) then mraise EValueError else
    let s1 := c_syms self in let s2 := c_syms other in
    if negb (length s1 =? 0) && negb (length s2 =? 0) && negb (is_permutation s1 s2)
    then mraise EValueError else
    let! n := calc_neg other in
    calc_add self (OCalc n)
  end.

(** Calc.py 267-274, 347-354: number + calc and number - calc. *)
Definition calc_radd (self : calc) (other : operand) : M calc := calc_add self other.
Definition calc_rsub (self : calc) (other : operand) : M calc := calc_neg self.

(** a[()] *)
Definition scalar_of (a : arr) : M K :=
  match shape a, data a with [], [x] => mret x | _, _ => mraise EValueError end.

(** Calc.py 356-437 *)
Definition calc_mul (self : calc) (other : operand) : M calc :=
  if negb (is_tensor_role (c_role self)) then mraise EValueError else
  let finish (a : arr) (o : obj) (syms : list string) : M calc :=
    let! t := make_tensor CTensor "TEMP" a (o_metric o) (o_coords o) (o_indices o) "T" in
    calc_init (Some t) syms RTensor in
  let by_scalar (k : K) : M calc :=
    let! t := tensor_of self in
    let! a := default_components t in
    let! o := getobj t in
    finish (amap (kmul k) a) o (c_syms self) in
  match other with
  | OOther => mraise ETypeError
  | OZero => by_scalar k0
  | OScalar k => by_scalar k
  | OCalc other =>
    let! t2 := tensor_of other in let! o2 := getobj t2 in
    let! t1 := tensor_of self in let! o1 := getobj t1 in
    if (0 <? o_rank o2) && (0 <? o_rank o1) then mraise EValueError else
    let! r := (if o_rank o1 =? 0 then
                 let! s := get_components t1 (o_coords o2) None in
                 let! k := scalar_of s in
                 let! a := default_components t2 in
                 let! o := getobj t2 in
                 mret (amap (kmul k) a, o, c_syms other)
               else mret (mkArr [] [], o1, c_syms self)) in
    let! r := (if o_rank o2 =? 0 then
                 let! s := get_components t2 (o_coords o1) None in
                 let! k := scalar_of s in
                 let! a := default_components t1 in
                 let! o := getobj t1 in
                 mret (amap (kmul k) a, o, c_syms self)
               else mret r) in
    let '(a, o, syms) := r in finish a o syms
  end.

(** Calc.py 439-474; [k] is 1/other. *)
Definition calc_div (self : calc) (k : K) : M calc :=
  if negb (is_tensor_role (c_role self)) then mraise EValueError else
  let! t := tensor_of self in
  let! a := default_components t in
  let! o := getobj t in
  need_components o ;;
  let! t' := make_tensor CTensor "TEMP" (amap (kmul k) a) (o_metric o) (o_coords o) (o_indices o) "T" in
  calc_init (Some t') (c_syms self) RTensor.

(** coords.get_components() as list of symbols: Coordinates.py 312-333. *)
Definition coord_symbols (c : oid) : M (list string) :=
  let! o := getobj c in
  coord_components c ;; mret (o_syms o).

(** Symbols of exactly one of the two tuples: Calc.py 525-544. *)
Definition free_symbols (s1 s2 : list string) : list string :=
  filter (fun s => xorb (smem s s1) (smem s s2)) (s1 ++ s2).

(** Shared symbols with their positions: Calc.py 533-538. *)
Definition shared (s1 s2 : list string) : list (string * (nat * nat)) :=
  flat_map (fun s => match spos s s1, spos s s2 with
                     | Some p, Some q => [(s, (p, q))]
                     | _, _ => []
                     end) s1.

(** The entries of a configuration whose symbol is in a list (zip stops at the shorter). *)
Definition select (i : list Z) (syms keep : list string) : list Z :=
  map fst (filter (fun zs => smem (snd zs) keep) (combine i syms)).

(** l[i] = x on a list *)
Definition mset (l : list Z) (i : nat) (z : Z) : M (list Z) :=
  if i <? length l then mret (set_nth i z l) else mraise EIndexError.

(** PartialD @ T and T @ PartialD: Calc.py 593-653.  [derivative_first]: which operand is the
    derivative; [s1], [s2] are the symbols of the left and of the right operand, [t], [ts]
    the tensor and its symbols, [pos] its position in a pair. *)
Definition partial_product (s1 s2 : list string) (t : oid) (ts : list string)
  (pos : nat * nat -> nat) : M calc :=
  let sh := shared s1 s2 in
  let! o := getobj t in
  let! i := match sh with [] => mret (o_indices o) | (_, pq) :: _ => mset (o_indices o) (pos pq) 1%Z end in
  let ix := match sh with [] => None | (_, pq) :: _ => Some (Z.of_nat (pos pq)) end in
  let! a := get_components t (o_coords o) (Some i) in
  let! c := mopt EAttributeError (o_coords o) in
  let! x := coord_symbols c in
  let! r := mlift (partial_contract x a ix) in
  let free := free_symbols s1 s2 in
  let sel := select (o_indices o) ts free in
  let ri := match sh with [] => (-1)%Z :: sel | _ => sel end in
  let! t' := make_tensor CTensor "TEMP" r (o_metric o) (o_coords o) ri "T" in
  calc_init (Some t') free RTensor.

(** Calc.py 547-590, two tensors of positive rank. *)
Definition tensor_product (self other : calc) (t1 t2 : oid) (o1 o2 : obj) : M calc :=
  let s1 := c_syms self in let s2 := c_syms other in
  let sh := shared s1 s2 in
  let! a1 := get_components t1 (o_coords o1) (Some (o_indices o1)) in
  let! i2 := match sh with
             | [] => mret (o_indices o2)
             | _ => mmap (fun js => match spos (snd js) s1 with
                                    | Some p => let! z := mnth (o_indices o1) p in mret (- z)%Z
                                    | None => mnth (o_indices o2) (fst js)
                                    end) (combine (seq 0 (length s2)) s2)
             end in
  let! a2 := get_components t2 (o_coords o2) (Some i2) in
  let! x := mlift (contract a1 a2 (map (fun e => (Z.of_nat (fst (snd e)), Z.of_nat (snd (snd e)))) sh)) in
  let free := free_symbols s1 s2 in
  let ri := select (o_indices o1) s1 free ++ select (o_indices o2) s2 free in
  let! t := make_tensor CTensor "TEMP" x (o_metric o1) (o_coords o1) ri "T" in
  calc_init (Some t) free RTensor.

(** Calc.py 476-653, 873-886: @ where no operand is a covariant derivative. *)
Definition matmul0 (self other : calc) : M calc :=
  match c_role self, c_role other with
  | RTensor, RTensor =>
    let! m1 := metric_attr (c_tensor self) in
    let! m2 := metric_attr (c_tensor other) in
    if negb (opt_oid_eqb m1 m2) then mraise EValueError else
    let! t1 := tensor_of self in let! o1 := getobj t1 in
    if o_rank o1 =? 0 then calc_mul self (OCalc other) else
    let! t2 := tensor_of other in let! o2 := getobj t2 in
    if o_rank o2 =? 0 then calc_mul self (OCalc other) else
    tensor_product self other t1 t2 o1 o2
  | RPartial, RTensor =>
    let! t := tensor_of other in
    partial_product (c_syms self) (c_syms other) t (c_syms other) snd
  | RTensor, RPartial =>
    let! t := tensor_of self in
    partial_product (c_syms self) (c_syms other) t (c_syms self) fst
  | _, _ => mraise EValueError
  end.

(** Calc.py 936-1027.  [indices]: the requested symbols, if any (an empty string counts as
    none). *)
Definition run_calc (c : calc) (name symbol : string) (indices : list string) : M oid :=
  let s := c_syms c in
  if negb (length indices =? 0) && negb (is_permutation s indices) then mraise EValueError else
  let indices := match indices with [] => s | _ => indices end in
  let! p := mmap (fun x => mopt EKeyError (spos x s)) indices in
  let! t := tensor_of c in
  let! o := getobj t in
  let! i := mmap (mnth (o_indices o)) p in
  let! a := get_components t (o_coords o) (Some (o_indices o)) in
  let! b := mlift (permutedims a p) in
  let b := if 0 <? rank b then amap simp b else b in
  let! r := make_tensor CTensor name b (o_metric o) (o_coords o) i symbol in
  clean_temporaries ;;
  mret r.

(** for instance in _instances: if instance._name == name: return instance *)
Fixpoint first_named (name : string) (l : list oid) : M (option oid) :=
  match l with
  | [] => mret None
  | i :: l' => let! o := getobj i in
               if String.eqb (o_name o) name then mret (Some i) else first_named name l'
  end.
Definition find_named (name : string) : M (option oid) := fun w => first_named name (insts w) w.

(** copy.copy(metric): an object with the same attributes that is not registered.  The
    dictionary of components is copied here, where Python shares it; the callers do not
    change it while the copy is in use. *)
Definition copy_object (t : oid) : M oid :=
  let! o := getobj t in
  fun w => match cls_of w t with
           | Some k => (Ok (length (heap w)), mkW (heap w ++ [(k, Some o)]) (insts w))
           | None => (Err EAttributeError, w)
           end.

(** One pass that deletes TEMP tensors, and the deletion of the intermediate result: the end
    of the functions that compute curvature. *)
Definition finish_calc (r : oid) : M unit :=
  pass (if_named "TEMP" (fun i => delete i true)) ;; delete r true.

(** Calc.py 1030-1076 *)
Definition calc_christoffel (m : oid) : M oid :=
  let! b := isinstance m CMetric in
  if negb b then mraise ETypeError else
  let! o := getobj m in
  let name := (o_name o ++ " Christoffel")%string in
  let! known := find_named name in
  match known with
  | Some i => mret i
  | None =>
    let! inv := copy_object m in
    change_default_indices inv [1; 1]%Z ;;
    (let! oi := getobj inv in put inv (set_name "TEMP" oi)) ;;
    let! c1 := calc_call inv ["lambda"; "sigma"]%string in
    let! c1 := calc_mul c1 (OScalar (kinvn 2)) in
    let! d := PartialD ["mu"]%string in
    let! g := calc_call m ["nu"; "sigma"]%string in
    let! x1 := matmul0 d g in
    let! d := PartialD ["nu"]%string in
    let! g := calc_call m ["sigma"; "mu"]%string in
    let! x2 := matmul0 d g in
    let! x := calc_add x1 (OCalc x2) in
    let! d := PartialD ["sigma"]%string in
    let! g := calc_call m ["mu"; "nu"]%string in
    let! x3 := matmul0 d g in
    let! x := calc_sub x (OCalc x3) in
    let! f := matmul0 c1 x in
    let! r := run_calc f "Result" "" [] in
    let! a := get_components r None (Some [1; -1; -1]%Z) in
    let! o := getobj m in
    let! t := make_tensor CChristoffel name a (Some m) (o_coords o) [1; -1; -1]%Z "Gamma" in
    finish_calc r ;;
    mret t
  end.

(** The default of options.ALL_SYMBOLS (Options.py 28-30). *)
Definition all_symbols : list string :=
  ["a"; "b"; "c"; "d"; "e"; "f"; "g"; "h"; "i"; "j"; "k"; "l"; "m"; "n"; "o"; "p"; "q"; "r";
   "s"; "t"; "u"; "v"; "w"; "x"; "y"; "z"]%string.

(** The members of options.ALL_SYMBOLS that are not in use: Calc.py 664-668 and 773-777.  What
    is iterated over may be no tuple, which is an error. *)
Definition unused (letters : res (list string)) (l : list string) : M (list string) :=
  let! a := mlift letters in mret (filter (fun s => negb (smem s l)) a).

(** sum(list): starts from the integer 0, so the first addition is __radd__ with 0. *)
Definition calc_sum (l : list calc) : M operand :=
  match l with
  | [] => mret OZero
  | c :: l' => let! r := mfold (fun x y => calc_add x (OCalc y)) l' c in mret (OCalc r)
  end.

(** The terms Gamma @ T of a covariant derivative, for the indices in configuration [z]:
    Calc.py 679-740.  [p] is the symbol of the derivative, [d] the dummy symbol. *)
Definition connection_terms (chr t : oid) (syms : list string) (i : list Z) (z : Z) (p d : string)
  : M (list calc) :=
  mmap (fun jsz =>
          let '(j, (s, _)) := jsz in
          let! g := calc_call chr (if (z =? 1)%Z then [s; p; d] else [d; p; s]) in
          let! x := calc_call t (map (fun ks => if fst ks =? j then d else snd ks)
                                     (combine (seq 0 (length syms)) syms)) in
          matmul0 g x)
       (filter (fun jsz => (snd (snd jsz) =? z)%Z)
               (combine (seq 0 (length syms)) (combine syms i))).

(** The derivative of a tensor in terms of Christoffel symbols: Calc.py 656-763 and 765-870,
    which differ in the choice [ps] of the dummy symbol and the symbol of the derivative and
    in the order in which the symbols are attached to the result. *)
Definition covariant_product (t : oid) (c : calc) (s1 s2 free : list string)
  (ps : M (string * string)) : M calc :=
  let! o := getobj t in
  let! m := mopt EAttributeError (o_metric o) in
  let! chr := calc_christoffel m in
  let! (d, p) := ps in
  let! o := getobj t in
  let! dp := PartialD [p] in
  let! x := matmul0 dp c in
  let! ups := connection_terms chr t (c_syms c) (o_indices o) 1 p d in
  let! u := calc_sum ups in
  let! x := calc_add x u in
  let! downs := connection_terms chr t (c_syms c) (o_indices o) (-1) p d in
  let! l := calc_sum downs in
  let! x := calc_sub x l in
  let! tx := tensor_of x in
  let! y := calc_call tx (s1 ++ s2) in
  let! r := run_calc y "Result" "" free in
  let! a := get_components r None None in
  let! o := getobj t in
  let sel := select (o_indices o) (c_syms c) free in
  let ri := match shared s1 s2 with [] => (-1)%Z :: sel | _ => sel end in
  delete r true ;;
  let! t' := make_tensor CTensor "TEMP" (amap simp a) (o_metric o) (o_coords o) ri "T" in
  calc_init (Some t') free RTensor.

(** Calc.py 476-886, with the value of options.ALL_SYMBOLS. *)
Definition matmul_with (letters : res (list string)) (self other : calc) : M calc :=
  let s1 := c_syms self in let s2 := c_syms other in
  let free := free_symbols s1 s2 in
  match c_role self, c_role other with
  | RCovariant, RTensor =>
    let! t := tensor_of other in
    covariant_product t other s1 s2 free
      (let! ds := unused letters (s2 ++ s1) in
       let! d := mnth ds 0 in
       let! p := match s2 with
                 | [] => mnth ds 1
                 | _ => let! x := mnth s1 0 in if smem x s2 then mnth ds 1 else mret x
                 end in
       mret (d, p))
  | RTensor, RCovariant =>
    let! t := tensor_of self in
    covariant_product t self s1 s2 free
      (let! ds := unused letters (s2 ++ s1) in
       let! d := mnth ds 0 in
       let! x := mnth s2 0 in
       let! p := (if smem x s2 then mnth ds 1 else mret x) in
       mret (d, p))
  | _, _ => matmul0 self other
  end.
Definition matmul := matmul_with (Ok all_symbols).

End CalcM.
Arguments operand {A}.
