(** Model of /repo/src/PyOGRe/Export.py: the text of an object, of a session, and the way
    back.  Definitions only.

    Simplifications: the functions that write and read files are in FileM.v; SymPy's mathematica_code and what a SymPy expression is are
    the fields of [CodeOps]; the messages of the raised exceptions are left out; an object
    whose symbol is sympy.Symbol("") is treated like one whose symbol is the empty text. *)
From Verif Require Import Base LexM ParseM InterpM WorldM.
From Coq Require Import Ascii DecimalString.
Import List.

(** [c_code] is mathematica_code on a scalar; [to_scalar], [to_int], [to_symbol] and
    [to_rule] say whether an expression of the reader is a scalar, the integer 1 or -1 (or
    another one), a symbol, an equation with a symbol on its left. *)
Class CodeOps {A : AlgOps} {O : PyOps} : Type := {
  c_code : K -> text;
  to_scalar : E -> option K;
  to_int : E -> option Z;
  to_symbol : E -> option string;
  to_rule : E -> rarg
}.

Section ExportM.
Context {A : AlgOps} {O : PyOps} {C : CodeOps}.

(** ** Writing *)

(** sep.join(l) *)
Fixpoint join (sep : text) (l : list text) : text :=
  match l with
  | [] => []
  | [x] => x
  | x :: l' => x ++ sep ++ join sep l'
  end.

(** A Python text between double quotes, with nothing escaped. *)
Definition in_quotes (s : string) : text := dquote :: chars s ++ [dquote].

(** mathematica_code on an integer. *)
Definition int_code (z : Z) : text := chars (NilZero.string_of_int (Z.to_int z)).

(** mathematica_code on a list or a tuple. *)
Definition list_code (l : list text) : text := chars "{" ++ join (chars ", ") l ++ chars "}".

(** mathematica_code on an Array: that of the nested list of its entries. *)
Fixpoint pieces {X : Type} (n m : nat) (l : list X) : list (list X) :=
  match n with 0 => [] | S n' => firstn m l :: pieces n' m (skipn m l) end.
Fixpoint nest_code (sh : list nat) (l : list K) : text :=
  match sh with
  | [] => match l with x :: _ => c_code x | [] => [] end
  | n :: sh' => list_code (map (nest_code sh') (pieces n (prodn sh') l))
  end.

(** The keys and values of the dictionaries made by tensor_to_dict. *)
Inductive xkey : Set := KText (s : string) | KConfig (i : list Z) (s : string) | KSymbol (x : string).
Inductive xval : Type :=
| XText (s : string) | XTuple (i : list Z) | XSymbol (x : string) | XExpr (e : K) | XArr (a : arr)
| XDict (d : list (xkey * xval)).

Definition xkey_eqb (a b : xkey) : bool :=
  match a, b with
  | KText s, KText t => String.eqb s t
  | KConfig i s, KConfig j t => cfg_eqb i j && String.eqb s t
  | KSymbol x, KSymbol y => String.eqb x y
  | _, _ => false
  end.

(** Export.py 24-47: iterable_to_mathematica, on a key. *)
Definition key_code (k : xkey) : text :=
  match k with
  | KText s => in_quotes s
  | KConfig i s =>
      chars "{{" ++ join (chars ",") (map int_code i) ++ chars "}," ++ in_quotes s ++ chars "}"
  | KSymbol x => c_code (ksym x)
  end.

(** Export.py 105-112 *)
Definition release_hold (t : text) : text := t ++ chars "\\ReleaseHold".

(** Export.py 115-151: tensor_dict_to_association; [b] is brackets and [s] sub_brackets. *)
Fixpoint value_code (b s : bool) (v : xval) : text :=
  match v with
  | XText s => in_quotes s
  | XTuple i => release_hold (list_code (map int_code i))
  | XSymbol x => release_hold (c_code (ksym x))
  | XExpr e => release_hold (c_code e)
  | XArr a =>
      release_hold (match shape a with
                    | [] => list_code [nest_code [] (data a)]
                    | _ => nest_code (shape a) (data a)
                    end)
  | XDict d =>
      chars (if b then "<|" else "{")
      ++ join (chars ",")
           (map (fun p => key_code (fst p) ++ chars "->" ++
                          (if xkey_eqb (fst p) (KText "CoordTransformations")
                           then value_code true false (snd p)
                           else value_code s true (snd p))) d)
      ++ chars (if b then "|>" else "}")
  end.
Definition association (d : list (xkey * xval)) : text := value_code true true (XDict d).

(** {f(x): g(x) for x in l} where the key and the value may raise. *)
Fixpoint comprehension {X : Type} (f : X -> M (option (xkey * xval))) (l : list X)
  (d : list (xkey * xval)) : M (list (xkey * xval)) :=
  match l with
  | [] => mret d
  | x :: l' =>
      let! p := f x in
      comprehension f l' (match p with Some (k, v) => dset xkey_eqb k v d | None => d end)
  end.

(** x._name *)
Definition name_at (i : oid) : M string := let! o := getobj i in mret (o_name o).

(** Export.py 66-75.  The three geodesic classes are one class of the model; the reader
    treats their three roles alike. *)
Definition role_name (k : cls) : string :=
  match k with
  | CCoordinates => "Coordinates" | CMetric => "Metric" | CTensor => "Tensor"
  | CChristoffel => "Christoffel" | CLagrangian => "Lagrangian"
  | CGeodesic => "GeodesicFromChristoffel"
  end.

(** The components in the coordinates [c] as a value of the dictionary: an expression where
    a coordinate transformation has made one of the components of a scalar. *)
Definition comp_value (o : obj) (c : oid) (a : arr) : xval :=
  match is_expr o c, data a with
  | true, [x] => XExpr x
  | _, _ => XArr a
  end.

(** Export.py 50-102: tensor_to_dict *)
Definition tensor_to_dict (t : oid) : M (list (xkey * xval)) :=
  let! o := getobj t in
  let! k := (fun w => mopt EAttributeError (cls_of w t) w) in
  let! comps := comprehension (fun p : oid * (list Z * arr) =>
      let! b := isinstance (fst p) CCoordinates in
      if negb b then mret None else
      let! n := name_at (fst p) in
      mret (Some (KConfig (fst (snd p)) n, comp_value o (fst p) (snd (snd p)))))
    (flat_map (fun cd => map (pair (fst cd)) (snd cd)) (o_comps o)) [] in
  let! dc := match k with
             | CCoordinates => mret (o_name o)
             | _ => let! c := mopt EAttributeError (o_coords o) in name_at c
             end in
  let d := [(KText "Components", XDict comps);
            (KText "DefaultCoords", XText dc);
            (KText "DefaultIndices", XTuple (o_indices o));
            (KText "Role", XText (role_name k));
            (KText "Symbol", XSymbol (if String.eqb (o_symbol o) "" then "T" else o_symbol o))]%string in
  match k with
  | CCoordinates =>
      let! js := comprehension (fun p : oid * (arr * arr * arr) =>
          let! n := name_at (fst p) in
          let '(j, i, c) := snd p in
          mret (Some (KText n, XDict [(KText "Jacobian", XArr j); (KText "InverseJacobian", XArr i);
                                      (KText "ChristoffelJacobian", XArr c)]%string)))
        (o_jacs o) [] in
      let! ts := comprehension (fun p : oid * list (string * K) =>
          let! n := name_at (fst p) in
          mret (Some (KText n, XDict (fold_left (fun d r =>
                dset xkey_eqb (KSymbol (fst r)) (XExpr (snd r)) d) (snd p) []))))
        (o_trans o) [] in
      mret (d ++ match o_jacs o with [] => [] | _ => [(KText "Jacobians"%string, XDict js)] end
              ++ [(KText "CoordTransformations"%string, XDict ts)])
  | _ =>
      let! m := mopt EAttributeError (o_metric o) in
      let! n := name_at m in
      mret (d ++ [(KText "Metric"%string, XText n)])
  end.

(** Version.py 1 *)
Definition version_text : string := "PyOGRe v1.0.0".

(** Export.py 243-261 *)
Definition export_to_string (t : oid) : M text :=
  let! d := tensor_to_dict t in
  let! n := name_at t in
  mret (chars "<|" ++ in_quotes n ++ chars "->"
        ++ association (dset xkey_eqb (KText "OGReVersion"%string) (XText version_text) d)
        ++ chars "|>").

Fixpoint mmap {X Y : Type} (f : X -> M Y) (l : list X) : M (list Y) :=
  match l with
  | [] => mret []
  | x :: l' => let! y := f x in let! ys := mmap f l' in mret (y :: ys)
  end.

(** Export.py 278-296 *)
Definition export_all_to_string : M text := fun w =>
  (let! l := mmap (fun t =>
       let! n := name_at t in
       let! d := tensor_to_dict t in
       mret (in_quotes n ++ chars "->" ++ association d)) (insts w) in
   mret (chars "<|" ++ in_quotes "Options" ++ chars "-><|" ++ in_quotes "OGReVersion" ++ chars "->"
         ++ in_quotes version_text ++ chars "|>," ++ join (chars ",") l ++ chars "|>")) w.

(** ** Reading *)

(** d[key] and key in d, for a text as key. *)
Fixpoint entry (key : string) (d : list (val * val)) : option val :=
  match d with
  | [] => None
  | (k, v) :: d' => if key_same k (VS (chars key)) then Some v else entry key d'
  end.
Definition item (key : string) (v : val) : res val :=
  match v with
  | VD d => match entry key d with Some x => Ok x | None => Err EKeyError end
  | _ => Err ETypeError
  end.

(** v.items(): only a dict has this method. *)
Definition items (v : val) : res (list (val * val)) :=
  match v with VD d => Ok d | _ => Err EAttributeError end.

(** Export.py 176-191 *)
Definition roles : list (string * cls) :=
  [("Coordinates", CCoordinates); ("Metric", CMetric); ("Tensor", CTensor); ("Calculated", CTensor);
   ("Lagrangian", CLagrangian); ("Christoffel", CChristoffel);
   ("GeodesicFromChristoffel", CGeodesic); ("GeodesicFromLagrangian", CGeodesic);
   ("GeodesicWithTimeParameter", CGeodesic); ("NormSquared", CTensor); ("Riemann", CTensor);
   ("Ricci Tensor", CTensor); ("Ricci Scalar", CTensor); ("Einstein", CTensor)]%string.
Definition class_of_role (v : val) : res cls :=
  match v with
  | VS t => match find (fun p => text_eqb (chars (fst p)) t) roles with
            | Some p => Ok (snd p)
            | None => Err EKeyError
            end
  | VE _ => Err EKeyError
  | _ => Err ETypeError
  end.

(** a == b; two dictionaries are not compared in the modelled code. *)
Fixpoint val_eqb (a b : val) : bool :=
  match a, b with
  | VE x, VE y => o_same x y
  | VS s, VS t => text_eqb s t
  | VL l, VL m =>
      (fix go l m := match l, m with
                     | [], [] => true
                     | x :: l', y :: m' => val_eqb x y && go l' m'
                     | _, _ => false
                     end) l m
  | _, _ => false
  end.

(** v[n] for a list, a text or a pair of lists; of a dictionary it is not modelled. *)
Definition at_index (n : nat) (v : val) : res val :=
  match v with
  | VL l => match nth_error l n with Some x => Ok x | None => Err EIndexError end
  | VS t => match nth_error t n with Some c => Ok (VS [c]) | None => Err EIndexError end
  | VT ks vs => match n with 0 => Ok (VL ks) | 1 => Ok (VL vs) | _ => Err EIndexError end
  | VD _ => Err ENotImplemented
  | VE _ => Err ETypeError
  end.

(** sympy.Array on a nested list: the shape is that of the lists, which must be equally
    long at every depth.  Texts and dictionaries inside are not modelled. *)
Fixpoint scan (v : val) : res (list nat * list E) :=
  match v with
  | VE e => Ok ([], [e])
  | VL l =>
      do ps <- rall (map scan l);
      match ps with
      | [] => Ok ([0], [])
      | p :: _ =>
          if forallb (fun q => if list_eq_dec Nat.eq_dec (fst q) (fst p) then true else false) ps
          then Ok (length ps :: fst p, flat_map snd ps) else Err EValueError
      end
  | _ => Err ENotImplemented
  end.

Fixpoint all_some {X : Type} (l : list (option X)) : option (list X) :=
  match l with
  | [] => Some []
  | Some x :: l' => match all_some l' with Some r => Some (x :: r) | None => None end
  | None :: _ => None
  end.

(** The array as argument of a constructor; entries that are not scalars are not modelled. *)
Definition array_arg (v : val) : res pyval :=
  do p <- scan v;
  match all_some (map to_symbol (snd p)) with
  | Some l => Ok (VSyms (fst p) l)
  | None => match all_some (map to_scalar (snd p)) with
            | Some l => Ok (VArr (mkArr (fst p) l))
            | None => Err ENotImplemented
            end
  end.

(** Export.py 201 *)
Definition representation (v : val) : res pyval :=
  match v with
  | VL [] => Err EIndexError
  | VL [x] => array_arg x
  | VL l => array_arg (VL l)
  | VE _ => Err ETypeError
  | _ => Err ENotImplemented
  end.

(** Export.py 198-201: the last pair of a configuration and its components that matches. *)
Fixpoint find_components (indices coordinates : val) (l : list (val * val)) (found : option pyval)
  : res (option pyval) :=
  match l with
  | [] => Ok found
  | (config, rep) :: l' =>
      do i <- at_index 0 config;
      if negb (val_eqb i indices) then find_components indices coordinates l' found else
      do c <- at_index 1 config;
      if negb (val_eqb c coordinates) then find_components indices coordinates l' found else
      do a <- representation rep;
      find_components indices coordinates l' (Some a)
  end.

(** Export.py 197: an association with keys that are lists is a pair of lists. *)
Definition two_lists (v : val) : res (list (val * val)) :=
  match v with
  | VT ks vs => Ok (combine ks vs)
  | VD [] | VL [] => Err EValueError
  | VE _ => Err ETypeError
  | _ => Err ENotImplemented
  end.

(** Export.py 207: tuple(indices).  An entry that is not an integer becomes 0 here: like
    it, 0 equals neither 1 nor -1. *)
Definition tuple_of (v : val) : res (list Z) :=
  match v with
  | VL l => Ok (map (fun x => match x with
                              | VE e => match to_int e with Some z => z | None => 0%Z end
                              | _ => 0%Z
                              end) l)
  | VE _ => Err ETypeError
  | _ => Err ENotImplemented
  end.

(** A value or an object. *)
Inductive arg : Type := AVal (v : val) | AObj (i : oid).

(** The arguments collected for a constructor, Export.py 205-236: no transformations stand
    for a missing key. *)
Record kwargs := mkKw {
  k_name : val; k_indices : list Z; k_comps : pyval; k_symbol : option val;
  k_coords : option arg; k_metric : option arg; k_trans : list (arg * val)
}.
Definition set_k_coords (c : arg) (k : kwargs) : kwargs :=
  mkKw (k_name k) (k_indices k) (k_comps k) (k_symbol k) (Some c) (k_metric k) (k_trans k).
Definition set_k_metric (m : arg) (k : kwargs) : kwargs :=
  mkKw (k_name k) (k_indices k) (k_comps k) (k_symbol k) (k_coords k) (Some m) (k_trans k).
Definition set_k_trans (t : list (arg * val)) (k : kwargs) : kwargs :=
  mkKw (k_name k) (k_indices k) (k_comps k) (k_symbol k) (k_coords k) (k_metric k) t.

(** i._name == v *)
Definition has_name (i : oid) (v : val) : M bool :=
  let! n := name_at i in
  mret (match v with VS t => text_eqb (chars n) t | _ => false end).

(** The registered objects with the name v, in order. *)
Fixpoint filter_named (v : val) (l : list oid) : M (list oid) :=
  match l with
  | [] => mret []
  | i :: l' =>
      let! b := has_name i v in
      let! r := filter_named v l' in
      mret (if b then i :: r else r)
  end.
Definition all_named (v : val) : M (list oid) := fun w => filter_named v (insts w) w.

(** The first registered object with the name v (a loop with break). *)
Fixpoint find_named (v : val) (l : list oid) : M (option oid) :=
  match l with
  | [] => mret None
  | i :: l' => let! b := has_name i v in if b then mret (Some i) else find_named v l'
  end.
Definition first_named (v : val) : M (option oid) := fun w => find_named v (insts w) w.

(** Export.py 213-223: kwargs["metric"] *)
Definition metric_arg (k : cls) (tensor : val) : M (option arg) :=
  match k with
  | CCoordinates | CMetric => mret None
  | _ =>
      let! m := mlift (item "Metric" tensor) in
      let! l := all_named m in
      mret (Some (match rev l with i :: _ => AObj i | [] => AVal m end))
  end.

(** Export.py 225-236: kwargs["transformations"] *)
Fixpoint trans_arg (l : list (val * val)) : M (list (arg * val)) :=
  match l with
  | [] => mret []
  | (c, rules) :: l' =>
      let! is := all_named c in
      let! r := trans_arg l' in
      mret (match is with
            | [] => [(AVal c, rules)]
            | _ => map (fun i => (AObj i, rules)) is
            end ++ r)
  end.

(** Export.py 174-238: the arguments for one entry. *)
Definition read_tensor (name tensor : val) : M (cls * kwargs) :=
  let! role := mlift (item "Role" tensor) in
  let! k := mlift (class_of_role role) in
  let! coordinates := mlift (item "DefaultCoords" tensor) in
  let! indices := mlift (item "DefaultIndices" tensor) in
  let! v := mlift (item "Components" tensor) in
  let! cs := mlift (two_lists v) in
  let! found := mlift (find_components indices coordinates cs None) in
  let! comps := mopt EException found in
  let! i := mlift (tuple_of indices) in
  let! d := mlift (items tensor) in
  let! m := metric_arg k tensor in
  let! tr := match entry "CoordTransformations" d with
             | Some v => let! l := mlift (items v) in trans_arg l
             | None => mret []
             end in
  mret (k, mkKw name i comps (entry "Symbol" d)
             (match k with CCoordinates => None | _ => Some (AVal coordinates) end) m tr).

Fixpoint read_tensors (l : list (val * val)) : M (list (cls * kwargs)) :=
  match l with
  | [] => mret []
  | (name, tensor) :: l' =>
      if key_same name (VS (chars "Options")) then read_tensors l' else
      let! k := read_tensor name tensor in
      let! r := read_tensors l' in
      mret (k :: r)
  end.

(** Export.py 154-240: string_to_tensor on a text; the fuel is that of the parser. *)
Definition string_to_tensor (fuel : nat) (s : text) : M (list (cls * kwargs)) :=
  let! v := mlift (parse_str fuel s) in
  let! l := mlift (items v) in
  read_tensors l.

(** *** The calls of the constructors *)

(** The value of a keyword argument as the constructors see it. *)
Definition value_arg (v : val) : pyval :=
  match v with
  | VS t => VStr (string_of_list_ascii t)
  | VE e => match to_symbol e with Some x => VSymbol x | None => VOther end
  | _ => VOther
  end.
Definition object_arg (a : option arg) : pyval :=
  match a with
  | Some (AObj i) => VObj i
  | Some (AVal v) => value_arg v
  | None => VNone
  end.

(** The default symbols of the classes: Coordinates.py 50, Metric.py 59, Tensor.py 55,
    Christoffel.py 31, Lagrangian.py 36, Geodesic.py 36, 228 and 420. *)
Definition default_symbol (k : cls) : string :=
  match k with
  | CCoordinates => "x" | CMetric => "g" | CTensor => "T" | CChristoffel => "Gamma"
  | CLagrangian => "L" | CGeodesic => "0"
  end.
Definition symbol_arg (k : cls) (kw : kwargs) : pyval :=
  match k_symbol kw with Some v => value_arg v | None => VSymbol (default_symbol k) end.

(** A list of rules: for rule in rules.  None as value of rules is not modelled. *)
Definition rule_arg (v : val) : rarg := match v with VE e => to_rule e | _ => RBad end.
Definition rules_arg (v : val) : list rarg :=
  match v with
  | VL l => map rule_arg l
  | VD d => map (fun p => rule_arg (fst p)) d
  | VS t => map (fun _ => RBad) t
  | VT _ _ => [RBad; RBad]
  | VE _ => [RBad]
  end.

(** tensor_class(...) with the collected arguments.  Transformations are no argument of the
    other classes.  Coordinates with a transformation to a name without object would keep the
    text as a key; this is not modelled. *)
Definition construct (k : cls) (kw : kwargs) : M oid :=
  match k with
  | CCoordinates =>
      match all_some (map (fun p => match fst p with
                                    | AObj i => Some (i, rules_arg (snd p))
                                    | AVal _ => None
                                    end) (k_trans kw)) with
      | Some tr => new_coordinates (value_arg (k_name kw)) (k_comps kw) (VTuple (k_indices kw))
                     (symbol_arg k kw) tr
      | None => mraise ENotImplemented
      end
  | _ =>
      match k_trans kw with
      | _ :: _ => mraise ETypeError
      | [] =>
          match k with
          | CMetric => new_metric (value_arg (k_name kw)) (k_comps kw) (object_arg (k_coords kw))
                         (VTuple (k_indices kw)) (symbol_arg k kw)
          | _ => new_tensor_as k (value_arg (k_name kw)) (k_comps kw) (object_arg (k_metric kw))
                   (object_arg (k_coords kw)) (VTuple (k_indices kw)) (symbol_arg k kw)
          end
      end
  end.

(** Export.py 344-361 *)
Definition import_from_string (fuel : nat) (s : text) : M oid :=
  let! l := string_to_tensor fuel s in
  let! (k, kw) := mopt EIndexError (hd_error l) in
  let! kw := match k_coords kw with
             | Some (AVal v) =>
                 let! i := first_named v in
                 match i with
                 | Some i => mret (set_k_coords (AObj i) kw)
                 | None => mraise EException
                 end
             | _ => mret kw
             end in
  construct k kw.

(** for x in l: f(x) *)
Fixpoint mfor {X : Type} (f : X -> M unit) (l : list X) : M unit :=
  match l with [] => mret tt | x :: l' => f x ;; mfor f l' end.

(** Export.py 406-410: every coordinate system that is found; others stay. *)
Definition some_coords (p : cls * kwargs) : M (cls * kwargs) :=
  match k_coords (snd p) with
  | Some (AVal (VS t)) =>
      let! l := all_named (VS t) in
      mret (match l with i :: _ => (fst p, set_k_coords (AObj i) (snd p)) | [] => p end)
  | _ => mret p
  end.

(** Export.py 424-431: the others must be found. *)
Definition need_coords (p : cls * kwargs) : M (cls * kwargs) :=
  match k_coords (snd p) with
  | Some (AVal (VS t)) =>
      let! i := first_named (VS t) in
      match i with
      | Some i => mret (fst p, set_k_coords (AObj i) (snd p))
      | None => mraise EException
      end
  | _ => mret p
  end.

(** Export.py 437-444 *)
Definition need_metric (p : cls * kwargs) : M (cls * kwargs) :=
  match k_metric (snd p) with
  | Some (AVal (VS t)) =>
      let! i := first_named (VS t) in
      match i with
      | Some i => mret (fst p, set_k_metric (AObj i) (snd p))
      | None => mraise EException
      end
  | _ => mret p
  end.

(** Export.py 416-422: the transformations of one coordinate system.  Where the target is not
    found the message reads kwargs["coords"], which Coordinates do not have.  The keys are
    texts here: no object was registered when they were read. *)
Definition add_transformations (i : oid) (l : list (arg * val)) : M unit :=
  mfor (fun p =>
    let! j := match fst p with AVal v => first_named v | AObj j => mret (Some j) end in
    match j with
    | Some j => add_coord_transformation i (VObj j) (Some (rules_arg (snd p)))
    | None => mraise EKeyError
    end) l.

(** Export.py 382-450 *)
Definition import_all_from_string (fuel : nat) (s : text) : M (list oid) :=
  clear_instances ;;
  let! l := string_to_tensor fuel s in
  mfor (fun p => if cls_eqb (fst p) CCoordinates
                 then construct (fst p) (set_k_trans [] (snd p)) ;; mret tt else mret tt) l ;;
  let! l := mmap some_coords l in
  mfor (fun p => match fst p, k_trans (snd p) with
                 | CCoordinates, _ :: _ =>
                     fun w => mfor (fun i =>
                       let! n := has_name i (k_name (snd p)) in
                       let! b := isinstance i CCoordinates in
                       if n && b then add_transformations i (k_trans (snd p)) else mret tt)
                       (insts w) w
                 | _, _ => mret tt
                 end) l ;;
  let! l := mmap need_coords l in
  mfor (fun p => if cls_eqb (fst p) CMetric
                 then construct (fst p) (snd p) ;; mret tt else mret tt) l ;;
  let! l := mmap need_metric l in
  mfor (fun p => match fst p with
                 | CCoordinates | CMetric => mret tt
                 | _ => construct (fst p) (snd p) ;; mret tt
                 end) l ;;
  (fun w => (Ok (insts w), w)).

End ExportM.
